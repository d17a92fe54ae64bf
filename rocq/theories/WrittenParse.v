(** Reading relations, sums, products and limits of arithmetic *)
From Coq Require Import String List NArith ZArith QArith Bool Lia.
From Verif Require Import PyStr PyStrTheory Regex RegexTheory Normalize NumTheory NormTheory Monad MonadTheory L2S L2STheory L2SState L2SValue L2SCalc Lexer Grammar GrammarTheory Arith ArithLex ArithPrep ArithParse Written.
Import ListNotations.
Local Close Scope Q_scope.
Local Open Scope N_scope.
Local Open Scope par_scope.

(** * The preparation of the text *)
Lemma lettered_prepare ts : Forall lettered ts -> prepare (src ts) = src ts.
Proof. exact (prepare_src ts). Qed.
Section Text.
Variable gap : pystr.
Hypothesis Hgap : gap = [] \/ gap = [32].
Local Notation toks := (ArithLex.toks gap).
Local Notation body := (Arith.body gap).
Lemma lettered_rel l : forall e, chain_wf gap e l -> Forall lettered (rel_toks gap l).
Proof.
  induction l as [|[[s o] e'] l IH]; intros e (W & H); [constructor|]. destruct H as (Hs & _ & H). destruct (rel_word s o Hs) as (_ & Re & Rf & _ & _ & Rg & _).
  cbn [rel_toks flat_map fst snd app]. constructor.
  - apply lettered_tok; [|left; reflexivity]. destruct (is_equals s); [apply a_equality, Re; reflexivity|apply a_follower, Rf; reflexivity].
  - apply Forall_app. split; [apply lettered_toks; [exact Hgap|destruct l; apply H|exact Rg]|apply (IH e' H)].
Qed.
Lemma chain_src e l : chain_wf gap e l -> src (toks e [] ++ rel_toks gap l) = chain_latex gap e l.
Proof. intro W. rewrite src_app, (src_rel gap l e W), (src_toks gap e []) by (destruct l; apply W). reflexivity. Qed.
Lemma prepare_chain e l : chain_wf gap e l -> prepare (chain_latex gap e l) = chain_latex gap e l.
Proof.
  intro W. rewrite <- (chain_src e l W). apply prepare_src. apply Forall_app. split; [apply lettered_toks; [exact Hgap|destruct l; apply W|left; reflexivity]|apply (lettered_rel l e W)].
Qed.
(** one underscore after a command *)
Lemma split_unique (c : N) (a b w s : pystr) : a ++ c :: b = w ++ c :: s -> ~ In c w -> ~ In c s -> a = w.
Proof.
  revert w. induction a as [|d a IH]; intros [|d' w] E N1 N2; cbn [app] in E.
  - reflexivity.
  - injection E as -> E. exfalso. apply N1. left. reflexivity.
  - injection E as -> E. exfalso. apply N2. rewrite <- E. apply in_or_app. right. left. reflexivity.
  - injection E as -> E. f_equal. apply (IH w E); [|exact N2]. intro H. apply N1. right. exact H.
Qed.
Lemma den_text t : forall w, den (rstr t) w -> w = t.
Proof. induction t as [|c t IH]; intros w D; [exact D|]. cbn [rstr den] in D. destruct D as (w1 & w2 & -> & D1 & D2). apply IH in D2. subst. destruct D1 as (d & -> & E). cbn in E. apply N.eqb_eq in E. subst. reflexivity. Qed.
Lemma perm_id w s t : ~ In 95 w -> ~ In 95 s -> ~ In 41 w -> re_sub perm_re t (w ++ 95 :: s) = w ++ 95 :: s.
Proof.
  intros Nw Ns Np. unfold re_sub. apply sub_id_den. intros x (a & b & E) _ D. unfold perm_re, rseq in D.
  cbn [fold_right] in D. destruct D as (w1 & w2 & -> & _ & D). destruct D as (w3 & w4 & -> & _ & D). destruct D as (w5 & w6 & -> & D & _).
  assert (w5 = u ")_{") as -> by (apply den_text, D).
  apply Np. assert (X : (a ++ w1 ++ w3 ++ [41]) = w).
  { apply (split_unique 95 _ (123 :: w6 ++ b) w s); [|exact Nw|exact Ns]. rewrite E. cbn. rewrite <- !app_assoc. reflexivity. }
  rewrite <- X. apply in_or_app; right. apply in_or_app; right. apply in_or_app; right. left. reflexivity.
Qed.
Definition heads : list pystr := [u "\sum"; u "\prod"; u "\lim"].
Lemma absent_head p h ts : absent p -> In h heads -> forallb (fun h => avoids p (h ++ u "_")) heads = true -> Forall lettered ts -> contains p (h ++ 95 :: src ts) = false.
Proof.
  intros A H T F. rewrite forallb_forall in T. specialize (T h H). change (95 :: src ts) with (u "_" ++ src ts). rewrite app_assoc, avoids_sound by exact T. apply absent_src; assumption.
Qed.
Ltac head_core p q r := apply replace_absent; apply (contains_core p q r); apply absent_head; [split; [discriminate|split; vm_compute; reflexivity]|assumption|vm_compute; reflexivity|assumption].
Lemma prepare_head h ts : In h heads -> Forall lettered ts -> prepare (h ++ 95 :: src ts) = h ++ 95 :: src ts.
Proof.
  intros H F. unfold prepare. cbv zeta. set (s := h ++ 95 :: src ts).
  assert (E1 : replace (u "\dfrac") (u "\frac") s = s) by head_core (@nil N) (u "\dfrac") (@nil N). rewrite E1.
  assert (E2 : replace (u "\tfrac") (u "\frac") s = s) by head_core (@nil N) (u "\tfrac") (@nil N). rewrite E2.
  assert (E3 : replace (u "\mathrm{T}") (u "T") s = s) by head_core (@nil N) (u "\mathrm") (u "{T}"). rewrite E3.
  assert (E4 : replace (u "\mathrm{d}") (u "d") s = s) by head_core (@nil N) (u "\mathrm") (u "{d}"). rewrite E4.
  assert (E5 : replace (u "{\rm d}") (u "d") s = s) by head_core (u "{") (u "\rm") (u " d}"). rewrite E5.
  assert (E6 : replace (u "\left[\begin{matrix}") (u "\begin{bmatrix}") s = s) by head_core (u "\left[") (u "\begin") (u "{matrix}"). rewrite E6.
  assert (E7 : replace (u "\end{matrix}\right]") (u "\end{bmatrix}") s = s) by head_core (@nil N) (u "\end") (u "{matrix}\right]"). rewrite E7.
  assert (E8 : forall t, re_sub perm_re t s = s).
  { intro t. apply perm_id; [|apply src_no_underscore, F|]; cbn in H; repeat (destruct H as [<-|H]; [vm_compute; clear; intuition discriminate|]); destruct H. }
  rewrite E8.
  assert (E9 : replace (u "\displaystyle") (u " ") s = s) by head_core (@nil N) (u "\displaystyle") (@nil N). rewrite E9.
  assert (E10 : replace (u "\quad") (u " ") s = s) by head_core (@nil N) (u "\quad") (@nil N). rewrite E10.
  assert (E11 : replace (u "\qquad") (u " ") s = s) by head_core (@nil N) (u "\qquad") (@nil N). rewrite E11.
  assert (E12 : replace (u "~") (u " ") s = s) by head_core (@nil N) (u "~") (@nil N). rewrite E12.
  assert (E13 : replace (u "\,") (u " ") s = s) by head_core (@nil N) (u "\,") (@nil N). rewrite E13.
  head_core (@nil N) (u "$") (@nil N).
Qed.
Lemma lettered_level l e ld : wf e -> ld = [] \/ ld = [32] -> Forall lettered (level_toks gap l e ld).
Proof.
  intros W L. unfold level_toks, ArithLex.at_level. destruct (Nat.leb _ _); [apply lettered_toks; assumption|]. unfold paren_toks.
  constructor; [apply lettered_tok; [apply a_starter, named_starter; cbn; tauto|exact L]|]. apply Forall_app. split; [apply lettered_toks; [exact Hgap|exact W|left; reflexivity]|].
  constructor; [apply lettered_tok; [apply a_ender, named_ender; cbn; tauto|left; reflexivity]|constructor].
Qed.
Ltac let1 := apply Forall_cons; [apply lettered_tok; [first [apply a_starter; apply named_starter; cbn; tauto | apply a_ender; apply named_ender; cbn; tauto
  | apply a_other; cbn; tauto | apply a_follower; cbn; tauto | apply a_equality; cbn; tauto | apply a_starter, sym_starter; assumption]|left; reflexivity]|].
Lemma lettered_rest b : binder_wf b -> exists h r, In (snd h) heads /\ binder_toks gap b = tok h [] :: tok w_under [] :: r /\ Forall lettered r.
Proof.
  assert (L0 : ([] : pystr) = [] \/ ([] : pystr) = [32]) by (left; reflexivity). assert (L1 : [32] = [] \/ [32] = [32]) by (right; reflexivity).
  intros [Hx Hb]. destruct b as [x lo hi|x lo hi|x a|below x ds]; cbn [binder_var] in *; eexists _, _; (split; [|split; [reflexivity|]]); try (cbn; tauto).
  - destruct Hb. do 3 let1. apply Forall_app; split; [apply lettered_toks; auto|]. do 3 let1. apply Forall_app; split; [apply lettered_toks; auto|]. let1. constructor.
  - destruct Hb. do 3 let1. apply Forall_app; split; [apply lettered_toks; auto|]. do 3 let1. apply Forall_app; split; [apply lettered_toks; auto|]. let1. constructor.
  - do 3 let1. apply Forall_app; split; [apply lettered_toks; auto|]. let1. constructor.
  - do 3 let1. rewrite <- app_assoc. apply Forall_app; split; [apply lettered_digits; [apply Hb|auto]|]. do 2 let1. destruct below; do 3 let1; constructor.
Qed.
Lemma prepare_bound b e : binder_wf b -> wf e -> prepare (bound_latex gap b e) = bound_latex gap b e.
Proof.
  intros Hb W. rewrite <- (src_bound gap b e Hb W). destruct (lettered_rest b Hb) as (h & r & Hh & E & F). unfold bound_toks. rewrite E.
  change (src ((tok h [] :: tok w_under [] :: r) ++ level_toks gap 1 e gap)) with (snd h ++ 95 :: src (r ++ level_toks gap 1 e gap)).
  apply prepare_head; [exact Hh|]. apply Forall_app. split; [exact F|apply lettered_level; assumption].
Qed.
End Text.

(** * Parsing *)
(** the tree is determined *)
Lemma runs_det n (p : P tree) c t t' ks : (List.length c <= n)%nat -> runs n p c t ks -> runs n p c t' ks -> t = t'.
Proof.
  intros L H H'. specialize (H [] (fun a _ => Found (MRel (RExpr a))) (MRel (RExpr t))). specialize (H' [] (fun a _ => Found (MRel (RExpr a))) (MRel (RExpr t'))).
  rewrite app_nil_r in H, H'. specialize (H L tame_nil I eq_refl). specialize (H' L tame_nil I eq_refl). congruence.
Qed.
Lemma inner1 c t : A1 c t -> forall n n', (n' < n)%nat -> runs n' (r_mp (X n)) c t C1.
Proof. intros H [|m] n' L; [lia|]. apply (r_mono m); [lia|]. apply close1, H. Qed.
Lemma many_stop {A} (p : P A) ts k : (forall k', p ts k' = NoParse) -> pmany p ts k = k [] ts.
Proof. intro H. unfold pmany. destruct (List.length ts); [reflexivity|]. cbn [pmany_n]. unfold palt, pbind at 1. rewrite H. reflexivity. Qed.
(** a component that takes everything up to the next sum *)
Section Wide.
Variables (x : token) (r : list token) (t : tree).
Hypothesis Hx : mem (kind x) [K_ADD; K_SUB] = false.
Hypothesis H : forall n, runs n (comp (X n) true) (x :: r) t C1.
Lemma wide_expr : AE (x :: r) (TJuxt [t]).
Proof.
  intro n. unfold additive. apply (open_close _ _ _ C1); [|reflexivity|apply dead_add]. apply open_start.
  unfold mp. unfold chain at 1. apply (r_end n _ _ _ (TJuxt [t])); [|apply (r_end n _ _ [] []); [apply r_many, many_nil, dead_mul|apply r_ret]].
  intros rest k o L T S E. unfold unary, pbind at 1. cbn [app]. rewrite many_stop.
  2:{ intro k'. unfold pone. rewrite Hx. reflexivity. }
  change (x :: r ++ rest) with ((x :: r) ++ rest). revert rest k o L T S E. change (runs n (l <~ pplus (postfix (X n) true) ;; pret (fold_left sign_node (rev []) (TJuxt l))) (x :: r) (TJuxt [t]) C1).
  apply (r_end n _ _ _ [t]); [|apply r_ret]. unfold pplus. apply (r_end n _ _ _ t).
  - unfold postfix. apply (r_end n _ _ _ t); [apply (lift5_gen n _ _ C1); [reflexivity|reflexivity|apply H]|].
    apply (r_end n _ _ [] []); [apply r_many, many_nil, (d_less _ (C2 ++ J)); [reflexivity|apply dead_postfix_op]|apply r_ret].
  - apply (r_end n _ _ [] []); [apply r_many, many_nil, (d_less _ C2); [reflexivity|apply dead_postfix]|apply r_ret].
Qed.
End Wide.
Section Binders.
Local Opaque rules_upto.
Ltac blk := intros rest0 kk0 Hl0 Ht0 Hs0; reflexivity.
Ltac skip := repeat (apply r_right; [solve [blk]|]).
Lemma sym_tame x : In x symbols -> tame [tok (w_sym x) []].
Proof. intro H. apply lettered_tame. constructor; [|constructor]. apply lettered_tok; [apply a_starter, sym_starter, H|left; reflexivity]. Qed.
Lemma sym_AE x nm : named (tok (w_sym x) []) = Some nm -> In x symbols -> AE [tok (w_sym x) []] (TJuxt [TSymbol nm None None]).
Proof.
  intros E Hx. pose proof (sym_tame x Hx) as T.
  assert (Un : unsigned [tok (w_sym x) []]) by (eexists _, _; split; [reflexivity|]; pose proof symbols_unsigned as U0; rewrite forallb_forall in U0; apply (U0 x Hx)).
  apply close0, lift0, lift1, lift2; [|exact Un|exact T]. apply lift3, lift4. intro n. apply (lift5_gen n _ _ (C4 ++ JN)); [reflexivity|reflexivity|]. apply f_sym, E.
Qed.
(** sums and products *)
Lemma f_big w (cx : list token) tx clo tlo chi thi cb tb : In w [w_sum; w_prod] ->
  AE cx tx -> AE clo tlo -> AE chi thi -> A1 cb tb -> tame cx -> tame clo -> tame chi -> tame cb -> cx <> [] ->
  forall n, runs n (comp (X n) true)
    (tok w [] :: tok w_under [] :: tok w_lbrace [] :: cx ++ tok w_eq [] :: clo ++ tok w_rbrace [] :: tok w_caret [] :: tok w_lbrace [] :: chi ++ tok w_rbrace [] :: cb)
    (TSum (fst w =? K_FUNC_PROD) tx tlo thi tb) C1.
Proof.
  intros Hw Hx Hlo Hhi Hb Tx Tlo Thi Tb Nx n.
  assert (G : runs n (func_sum (X n)) (tok w [] :: tok w_under [] :: tok w_lbrace [] :: cx ++ tok w_eq [] :: clo ++ tok w_rbrace [] :: tok w_caret [] :: tok w_lbrace [] :: chi ++ tok w_rbrace [] :: cb)
    (TSum (fst w =? K_FUNC_PROD) tx tlo thi tb) C1).
  { unfold func_sum. apply r_step; [cbn in Hw; destruct Hw as [<-|[<-|[]]]; reflexivity|]. intros n1 L1.
    replace (tok w_under [] :: tok w_lbrace [] :: cx ++ tok w_eq [] :: clo ++ tok w_rbrace [] :: tok w_caret [] :: tok w_lbrace [] :: chi ++ tok w_rbrace [] :: cb)
      with ((tok w_under [] :: (tok w_lbrace [] :: (cx ++ tok w_eq [] :: clo) ++ [tok w_rbrace []]) ++ tok w_caret [] :: tok w_lbrace [] :: chi ++ [tok w_rbrace []]) ++ cb)
      by (repeat (cbn [app]; rewrite <- app_assoc); reflexivity).
    apply (r_seq n1 _ _ _ ((tx, tlo), thi)); [|discriminate|exact Tb|].
    - intro ks. apply r_left. replace (tok w_under [] :: (tok w_lbrace [] :: (cx ++ tok w_eq [] :: clo) ++ [tok w_rbrace []]) ++ tok w_caret [] :: tok w_lbrace [] :: chi ++ [tok w_rbrace []])
        with ((tok w_under [] :: tok w_lbrace [] :: (cx ++ tok w_eq [] :: clo) ++ [tok w_rbrace []]) ++ tok w_caret [] :: tok w_lbrace [] :: chi ++ [tok w_rbrace []]) by reflexivity.
      apply (r_seq n1 _ _ _ (tx, tlo)); [|discriminate|tam|].
      + intro ks'. unfold subeq. apply (r_tstep n1 w_under). intros n2 L2. apply (r_braced n2 _ _ (tx, tlo) C0); [|tam|reflexivity].
        intros n3 L3. unfold equality. apply (r_then n3 _ _ cx tx (tok w_eq [] :: clo) _ C0); [apply inner; [exact Hx|lia]|exact Nx|tam|apply after_cons; reflexivity|].
        intros n4 L4. apply r_step; [reflexivity|]. intros n5 L5. apply (r_end n5 _ _ clo tlo); [apply inner; [exact Hlo|lia]|apply r_ret].
      + intros n2 L2. apply (r_end n2 _ _ _ thi); [apply (f_sup chi thi Thi Hhi); lia|apply r_ret].
    - intros n2 L2. apply (r_end n2 _ _ cb tb); [apply inner1; [exact Hb|lia]|]. cbn [fst snd kind tok]. apply r_ret. }
  unfold comp. cbn in Hw. destruct Hw as [<-|[<-|[]]]; skip; apply r_left; unfold func; skip; apply r_left; exact G.
Qed.
(** limits *)
Definition lim_name (x : token) : pystr := if kind x =? K_LETTER_NO_E then text x else if kind x =? K_GREEK_CMD then strip (skipn 1 (text x)) else strip (text x).
Lemma f_limit x ca ta d cb tb : mem (kind x) [K_LETTER_NO_E; K_GREEK_CMD; K_OTHER_SYMBOL_CMD] = true -> tame [x] -> tame ca ->
  (forall n n', (n' < n)%nat -> runs n' (a <~ r_expr (X n) ;; d <~ popt (_ <~ ptok K_CARET ;; _ <~ ptok K_L_BRACE ;; x <~ pone [K_ADD; K_SUB] ;; _ <~ ptok K_R_BRACE ;; pret x) ;; pret (x, a, d)) ca (x, ta, d) [K_R_BRACE]) ->
  A1 cb tb -> tame cb -> 
  forall n, runs n (comp (X n) true) (tok w_lim [] :: tok w_under [] :: tok w_lbrace [] :: x :: tok w_to [] :: ca ++ tok w_rbrace [] :: cb)
    (TLim (lim_name x) (match d with Some d => kind d =? K_SUB | None => false end) ta tb) C1.
Proof.
  intros Hk Tx Ta Ha Hb Tb n. unfold comp. skip. apply r_left. unfold func. skip. apply r_left. unfold func_lim.
  apply (r_tstep n w_lim). intros n1 L1. apply (r_tstep n1 w_under). intros n2 L2.
  replace (tok w_lbrace [] :: x :: tok w_to [] :: ca ++ tok w_rbrace [] :: cb) with ((tok w_lbrace [] :: (x :: tok w_to [] :: ca) ++ [tok w_rbrace []]) ++ cb)
    by (cbn [app]; rewrite <- app_assoc; reflexivity).
  assert (T2 : tame (x :: tok w_to [] :: ca)) by (inversion Tx; subst; constructor; [assumption|tam]).
  apply (r_seq n2 _ _ _ (x, ta, d)); [|discriminate|exact Tb|].
  - apply (r_braced n2 _ _ _ [K_R_BRACE]); [|exact T2|reflexivity]. intros n3 L3. apply r_step; [exact Hk|]. intros n4 L4. apply (r_tstep n4 w_to). intros n5 L5. apply Ha. lia.
  - intros n3 L3. apply (r_end n3 _ _ cb tb); [apply inner1; [exact Hb|lia]|]. apply r_ret.
Qed.
Lemma lim_point x ca ta : AE ca ta -> forall n n', (n' < n)%nat ->
  runs n' (a <~ r_expr (X n) ;; d <~ popt (_ <~ ptok K_CARET ;; _ <~ ptok K_L_BRACE ;; x <~ pone [K_ADD; K_SUB] ;; _ <~ ptok K_R_BRACE ;; pret x) ;; pret (x, a, d)) ca (x : token, ta, None) [K_R_BRACE].
Proof.
  intros Ha n n' L. apply (r_end n' _ _ ca ta); [apply (r_less _ _ _ _ C0); [reflexivity|apply inner; [exact Ha|exact L]]|].
  apply (r_end n' _ _ [] None); [apply r_none; dead_by_first|apply r_ret].
Qed.
Lemma exp_sign_dead m sg rest k : mem (kind sg) [K_ADD; K_SUB] = true ->
  exp_op (X (Datatypes.S m)) (tok w_caret [] :: tok w_lbrace [] :: sg :: tok w_rbrace [] :: rest) k = NoParse.
Proof.
  intro M. destruct sg as [kd s l]. cbn [kind] in M. unfold mem in M. cbn in M. repeat (apply orb_true_iff in M; destruct M as [M|M]; [apply N.eqb_eq in M; subst kd; reflexivity|]). discriminate.
Qed.
Lemma side_point m ds sg ld rest k o : (List.length (digits ld ds ++ tok w_caret [] :: tok w_lbrace [] :: sg :: tok w_rbrace [] :: rest) <= Datatypes.S m)%nat -> numeral ds -> mem (kind sg) [K_ADD; K_SUB] = true -> tame rest ->
  k (TJuxt [TNumber ds]) (tok w_caret [] :: tok w_lbrace [] :: sg :: tok w_rbrace [] :: rest) = Found o ->
  additive (X (Datatypes.S m)) (digits ld ds ++ tok w_caret [] :: tok w_lbrace [] :: sg :: tok w_rbrace [] :: rest) k = Found o.
Proof.
  intros Lm [Fd Nd] M T E. set (tl := tok w_caret [] :: tok w_lbrace [] :: sg :: tok w_rbrace [] :: rest) in *.
  assert (Tt : tame tl).
  { unfold tl. do 2 (apply tame_cons; [reflexivity|]). constructor; [|apply tame_cons; [reflexivity|exact T]].
    unfold mem in M. cbn in M. repeat (apply orb_true_iff in M; destruct M as [M|M]; [apply N.eqb_eq in M; rewrite M; split; discriminate|]). discriminate. }
  unfold additive, chain at 1, pbind at 1. unfold mp, chain at 1, pbind at 1. unfold unary, pbind at 1. rewrite many_stop.
  2:{ intro k'. destruct ds as [|c r]; [congruence|reflexivity]. }
  unfold pbind at 1, pplus at 1, pbind at 1. unfold postfix at 1, pbind at 1. unfold exp at 1, pbind at 1.
  apply (f_num (Datatypes.S m) ld ds Nd tl); [exact Lm|exact Tt|reflexivity|].
  unfold pbind at 1. rewrite many_stop by (intro k'; apply exp_sign_dead, M). unfold pret at 1.
  unfold pbind at 1. rewrite many_stop by (intro k'; reflexivity). unfold pret at 1.
  unfold pbind at 1. rewrite many_stop by (intro k'; reflexivity). unfold pret at 1.
  unfold pret at 1. unfold pbind at 1. rewrite many_stop by (intro k'; reflexivity). unfold pret at 1.
  unfold pbind at 1. rewrite many_stop by (intro k'; reflexivity). exact E.
Qed.
Lemma lim_side x ds sg ld : numeral ds -> mem (kind sg) [K_ADD; K_SUB] = true -> forall n n', (n' < n)%nat ->
  runs n' (a <~ r_expr (X n) ;; d <~ popt (_ <~ ptok K_CARET ;; _ <~ ptok K_L_BRACE ;; x <~ pone [K_ADD; K_SUB] ;; _ <~ ptok K_R_BRACE ;; pret x) ;; pret (x, a, d))
    (digits ld ds ++ [tok w_caret []; tok w_lbrace []; sg; tok w_rbrace []]) (x : token, TJuxt [TNumber ds], Some sg) [K_R_BRACE].
Proof.
  intros Nd M n n' L rest k o Ln T S E. rewrite <- app_assoc in *. cbn [app] in *. unfold pbind at 1.
  assert (Lg := Ln). rewrite app_length in Lg. cbn [List.length] in Lg. destruct n as [|[|m]]; [lia|lia|].
  apply (side_point m ds sg ld rest); [lia|exact Nd|exact M|exact T|].
  unfold pbind at 1, popt, pmap, palt. unfold pbind, ptok, pone, pret. cbn [kind tok fst w_caret w_lbrace w_rbrace]. unfold mem at 1 2. cbn [existsb N.eqb orb].
  rewrite M. cbn. rewrite E. reflexivity.
Qed.
End Binders.

(** * The trees and their values *)
Section Plain.
Variable gap : pystr.
Hypothesis Hgap : gap = [] \/ gap = [32].
Context {A : Type}.
Variable K : arithmetic A.
Variable V : Type.
Variable den : (pystr -> A) -> V -> A.
Variable values : list (pystr * pv V).
Variable hash : pystr -> pystr.
Notation toks := (ArithLex.toks gap).
(** the same tree for every environment *)
Lemma toks_AE e ld : wf e -> ld = [] \/ ld = [32] -> exists t, AE (toks e ld) t /\ forall rho, Reads K V (den rho) rho values hash t (value K rho e).
Proof.
  intros W L. assert (G : forall rho, exists t, AE (toks e ld) t /\ Reads K V (den rho) rho values hash t (value K rho e)).
  { intro rho. destruct (main gap Hgap K V (den rho) rho values hash e ld W L 0%nat ltac:(lia)) as (t & R & H). exists t. split; [apply close0, H|exact R]. }
  destruct (G (fun _ => of_Q K 0%Q)) as (t & H & _). exists t. split; [exact H|]. intro rho. destruct (G rho) as (t' & H' & R').
  assert (t = t') as -> by (apply (runs_det (List.length (toks e ld)) (additive (X (List.length (toks e ld)))) (toks e ld) t t' C0); [apply Nat.le_refl|apply H|apply H']). exact R'.
Qed.
Lemma level_A1 e : wf e -> exists t, A1 (level_toks gap 1 e gap) t /\ forall rho, Reads K V (den rho) rho values hash t (value K rho e).
Proof.
  intros W. assert (G : forall rho, exists t, A1 (level_toks gap 1 e gap) t /\ Reads K V (den rho) rho values hash t (value K rho e)).
  { intro rho. unfold level_toks, ArithLex.at_level. destruct (Nat.leb 1 (prec e)) eqn:El.
    - apply Nat.leb_le in El. destruct (main gap Hgap K V (den rho) rho values hash e gap W Hgap 1%nat) as (t & R & H); [destruct e; cbn [prec' prec] in *; lia|]. exists t. auto.
    - destruct (paren_lvl K V (den rho) rho values hash J (toks e []) (value K rho e) gap) with (l' := 1%nat) as (t & R & H).
      + left; reflexivity.
      + apply tame_toks; [exact Hgap|exact W|left; reflexivity].
      + exact (main gap Hgap K V (den rho) rho values hash e [] W (or_introl eq_refl) 0%nat ltac:(lia)).
      + lia.
      + exists t. auto. }
  destruct (G (fun _ => of_Q K 0%Q)) as (t & H & _). exists t. split; [exact H|]. intro rho. destruct (G rho) as (t' & H' & R').
  assert (t = t') as -> by (apply (runs_det (List.length (level_toks gap 1 e gap)) (mp (X (List.length (level_toks gap 1 e gap)))) (level_toks gap 1 e gap) t t' C1); [apply Nat.le_refl|apply close1, H|apply close1, H']). exact R'.
Qed.
Lemma level_tame e : wf e -> tame (level_toks gap 1 e gap).
Proof. intro W. apply lettered_tame, lettered_level; [exact Hgap|exact W|exact Hgap]. Qed.
Lemma sym_lim x : In x symbols -> lim_name (tok (w_sym x) []) = sym_name x /\ mem (kind (tok (w_sym x) [])) [K_LETTER_NO_E; K_GREEK_CMD; K_OTHER_SYMBOL_CMD] = true.
Proof.
  assert (T : Forall (fun x => str_eqb (lim_name (tok (w_sym x) [])) (sym_name x) && mem (kind (tok (w_sym x) [])) [K_LETTER_NO_E; K_GREEK_CMD; K_OTHER_SYMBOL_CMD] = true) symbols)
    by (apply Forall_forall, forallb_forall; vm_compute; reflexivity).
  rewrite Forall_forall in T. intro H. specialize (T x H). apply andb_true_iff in T. destruct T as [T1 T2]. apply str_eqb_eq in T1. auto.
Qed.
Theorem parse_chain rho e l : chain_wf gap e l ->
  exists t ts, Reads K V (den rho) rho values hash t (value K rho e) /\ Forall2 (fun p t => Reads K V (den rho) rho values hash t (value K rho (snd p))) l ts /\
  parse_text (chain_latex gap e l) = Found (MRel (fold_left (fun r pt => RRel (snd (fst (fst pt))) r (RExpr (snd pt))) (combine l ts) (RExpr t))).
Proof.
  intro W. assert (We : wf e) by (destruct l; apply W). destruct (toks_AE e [] We (or_introl eq_refl)) as (t & Ht & R). exists t.
  assert (G : forall l e, chain_wf gap e l -> exists ts, Forall2 (fun p t => Reads K V (den rho) rho values hash t (value K rho (snd p))) l ts /\
     (forall n n', (n' < n)%nat -> many_runs n' (o <~ pone rel_ops ;; b <~ r_expr (X n) ;; pret (kind o, b)) (rel_toks gap l) (map (fun pt => (sign_kind (fst (fst (fst pt))), snd pt)) (combine l ts)) []) /\
     (forall r, fold_left (fun t ob => rel_node (fst ob) t (RExpr (snd ob))) (map (fun pt => (sign_kind (fst (fst (fst pt))), snd pt)) (combine l ts)) r =
       fold_left (fun r pt => RRel (snd (fst (fst pt))) r (RExpr (snd pt))) (combine l ts) r) /\ after C0 (rel_toks gap l) [] /\ tame (rel_toks gap l)).
  { clear - Hgap. induction l as [|[[s o] e'] l IH]; intros e (W & H).
    - exists []. split; [constructor|]. split; [intros; apply many_nil; intros [|x rest] k S; [reflexivity|discriminate S]|]. split; [reflexivity|]. split; [intros rest S; destruct rest; [exact I|discriminate S]|constructor].
    - destruct H as (Hs & _ & H). destruct (IH e' H) as (ts & F2 & Hm & Hf & Ha & Ht). assert (W' : wf e') by (destruct l; apply H).
      destruct (rel_word s o Hs) as (_ & _ & _ & _ & _ & Rg & Rk & Rn). destruct (toks_AE e' (sign_gap s) W' Rg) as (t' & Ht' & R').
      pose proof (lettered_rel gap Hgap ((s, o, e') :: l) e) as LT. exists (t' :: ts). split; [constructor; [apply R'|exact F2]|]. cbn [combine map fst snd rel_toks flat_map app]. split; [|split; [|split]].
      + intros n n' L. change (tok (w_rel s) [] :: toks e' (sign_gap s) ++ flat_map (fun p => tok (w_rel (fst (fst p))) [] :: toks (snd p) (sign_gap (fst (fst p)))) l) with ((tok (w_rel s) [] :: toks e' (sign_gap s)) ++ rel_toks gap l).
        apply (many_cons n' _ _ _ _ _ C0); [discriminate| |exact Ht|exact Ha|apply Hm, L].
        apply r_step; [exact Rk|]. intros n1 L1. apply (r_end n1 _ _ _ t'); [apply inner; [exact Ht'|lia]|]. cbn [kind tok fst w_rel]. apply r_ret.
      + intro r. cbn [fold_left fst snd]. rewrite Rn. apply Hf.
      + apply after_cons. cbn [kind tok fst w_rel]. unfold C0. unfold mem. rewrite existsb_app. unfold mem in Rk. rewrite Rk. apply orb_true_r.
      + constructor; [|apply tame_app; [apply tame_toks; assumption|exact Ht]]. clear - Hs. cbn in Hs. repeat (destruct Hs as [Hs|Hs]; [injection Hs as <- <-; split; vm_compute; discriminate|]). destruct Hs. }
  destruct (G l e W) as (ts & F2 & Hm & Hf & Ha & T). exists ts. split; [apply R|]. split; [exact F2|].
  unfold parse_text. rewrite (lex_chain gap Hgap e l W). unfold parse, math, palt.
  set (c := toks e []) in *. set (d := rel_toks gap l) in *.
  replace (pmap MRel _ _ _) with (Found (MRel (fold_left (fun r pt => RRel (snd (fst (fst pt))) r (RExpr (snd pt))) (combine l ts) (RExpr t)))); [reflexivity|]. symmetry.
  unfold pmap, pbind at 1, pret, relation, pbind at 1.
  apply (inner c t Ht (Datatypes.S (List.length (c ++ d))) (List.length (c ++ d))); [lia|lia|exact T| |].
  - specialize (Ha [] I). rewrite app_nil_r in Ha. exact Ha.
  - unfold pbind at 1. unfold pmany.
    pose proof (Hm (Datatypes.S (List.length (c ++ d))) (List.length (c ++ d)) ltac:(lia) (List.length d) []) as G0. rewrite app_nil_r in G0.
    apply G0; [lia|rewrite app_length; lia|constructor|exact I|]. rewrite Hf. reflexivity.
Qed.
End Plain.
Section Results.
Variable gap : pystr.
Hypothesis Hgap : gap = [] \/ gap = [32].
Context {A : Type}.
Variable K : calculus A.
Variable V : Type.
Variable den : (pystr -> A) -> V -> A.
Variable values : list (pystr * pv V).
Variable hash : pystr -> pystr.
Notation toks := (ArithLex.toks gap).
Local Notation toks_AE := (toks_AE gap Hgap K V den values hash).
Local Notation level_A1 := (level_A1 gap Hgap K V den values hash).
Local Notation level_tame := (level_tame gap Hgap).
Theorem parse_bound b e : binder_wf b -> wf e ->
  exists t, parse_text (bound_latex gap b e) = Found (MRel (RExpr t)) /\ forall rho, Means K V den values hash rho t (bound_value K rho b e).
Proof.
  intros Hb W. assert (G : exists t, AE (bound_toks gap b e) t /\ forall rho, Means K V den values hash rho t (bound_value K rho b e)).
  { destruct (level_A1 e W) as (te & He & Re). pose proof (level_tame e W) as Te. destruct Hb as [Hx Hb]. pose proof (sym_tame (binder_var b) Hx) as Tx.
    assert (L0 : ([] : pystr) = [] \/ ([] : pystr) = [32]) by (left; reflexivity).
    assert (TT : forall a ld, wf a -> ld = [] \/ ld = [32] -> tame (toks a ld)) by (intros; apply tame_toks; assumption).
    assert (JX : forall t a, (forall rho, Means K V den values hash rho t (a rho)) -> forall rho, Means K V den values hash rho (TJuxt [t]) (a rho)) by (intros; apply M_juxt, M_one; auto).
    destruct b as [x lo hi|x lo hi|x a|below x ds]; cbn [binder_var] in *.
    - destruct Hb as [Wl Wh]. destruct (sym_named x [] Hx) as (nm & En & Nm). destruct (toks_AE lo [] Wl L0) as (tl & Hl & Rl). destruct (toks_AE hi [] Wh L0) as (th & Hh & Rh).
      exists (TJuxt [TSum false (TJuxt [TSymbol nm None None]) tl th te]). split.
      + unfold bound_toks, binder_toks, big. cbn [app]. rewrite <- app_assoc. cbn [app]. rewrite <- app_assoc. cbn [app]. apply wide_expr; [reflexivity|]. intro n.
        apply (f_big w_sum [tok (w_sym x) []] _ (toks lo []) tl (toks hi []) th); auto; [cbn; tauto|apply sym_AE; assumption|discriminate].
      + apply JX. intro rho. unfold bound_value, binder_value. apply (M_sum K V den values hash rho _ (sym_name x)); [apply vt_juxt, vt_symbol, Nm|intro k; apply M_plain, Re|apply M_plain, Rl|apply M_plain, Rh].
    - destruct Hb as [Wl Wh]. destruct (sym_named x [] Hx) as (nm & En & Nm). destruct (toks_AE lo [] Wl L0) as (tl & Hl & Rl). destruct (toks_AE hi [] Wh L0) as (th & Hh & Rh).
      exists (TJuxt [TSum true (TJuxt [TSymbol nm None None]) tl th te]). split.
      + unfold bound_toks, binder_toks, big. cbn [app]. rewrite <- app_assoc. cbn [app]. rewrite <- app_assoc. cbn [app]. apply wide_expr; [reflexivity|]. intro n.
        apply (f_big w_prod [tok (w_sym x) []] _ (toks lo []) tl (toks hi []) th); auto; [cbn; tauto|apply sym_AE; assumption|discriminate].
      + apply JX. intro rho. unfold bound_value, binder_value. apply (M_prod K V den values hash rho _ (sym_name x)); [apply vt_juxt, vt_symbol, Nm|intro k; apply M_plain, Re|apply M_plain, Rl|apply M_plain, Rh].
    - destruct (sym_lim x Hx) as [Nx Kx]. destruct (toks_AE a [32] Hb (or_intror eq_refl)) as (ta & Ha & Ra).
      exists (TJuxt [TLim (sym_name x) false ta te]). split.
      + unfold bound_toks, binder_toks, to. cbn [app]. rewrite <- app_assoc. cbn [app]. apply wide_expr; [reflexivity|]. intro n. rewrite <- Nx.
        apply (f_limit (tok (w_sym x) []) (toks a [32]) ta None); auto. intros; apply lim_point; assumption.
      + apply JX. intro rho. unfold bound_value, binder_value. apply (M_lim K V den values hash rho (sym_name x)); [intro k; apply M_plain, Re|apply M_plain, Ra].
    - destruct (sym_lim x Hx) as [Nx Kx].
      exists (TJuxt [TLim (sym_name x) below (TJuxt [TNumber ds]) te]). split.
      + unfold bound_toks, binder_toks, to. cbn [app]. rewrite <- !app_assoc. cbn [app]. apply wide_expr; [reflexivity|]. intro n. rewrite <- Nx.
        replace below with (match Some (tok (side below) []) with Some d => kind d =? K_SUB | None => false end) at 2 by (destruct below; reflexivity).
        change (digits [32] ds ++ tok w_caret [] :: tok w_lbrace [] :: tok (side below) [] :: tok w_rbrace [] :: tok w_rbrace [] :: level_toks gap 1 e gap)
          with (digits [32] ds ++ [tok w_caret []; tok w_lbrace []; tok (side below) []; tok w_rbrace []] ++ tok w_rbrace [] :: level_toks gap 1 e gap). rewrite app_assoc.
        apply (f_limit (tok (w_sym x) []) _ (TJuxt [TNumber ds]) (Some (tok (side below) []))); auto.
        * apply tame_app; [apply tame_digits|destruct below; tam].
        * intros. apply lim_side; [exact Hb|destruct below; reflexivity|assumption].
      + apply JX. intro rho. unfold bound_value, binder_value. apply (M_lim K V den values hash rho (sym_name x)); [intro k; apply M_plain, Re|].
        apply M_plain, R_juxt, R_one, reads_num, Hb. }
  destruct G as (t & Ht & M). exists t. split; [|exact M]. unfold parse_text. rewrite (lex_bound gap Hgap b e Hb W). unfold parse, math, palt.
  replace (pmap MRel _ _ _) with (Found (MRel (RExpr t))); [reflexivity|]. symmetry.
  set (c := bound_toks gap b e) in *. rewrite <- (app_nil_r c) at 2. unfold pmap, pbind at 1, pret, relation, pbind at 1.
  apply (inner c t Ht (Datatypes.S (List.length c)) (List.length c)); [lia|rewrite app_nil_r; lia|constructor|exact I|reflexivity].
Qed.
End Results.
