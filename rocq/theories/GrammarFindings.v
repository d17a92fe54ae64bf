(** Where the grammar reads a text otherwise than it is meant *)
From Coq Require Import String List NArith Bool Lia.
From Verif Require Import PyStr Regex Normalize Monad L2S L2SValue Lexer Grammar Arith ArithLex.
Import ListNotations.
Local Open Scope N_scope.

Definition alphabet_letters : list N := map Ascii.N_of_ascii (list_ascii_of_string "abcdefghijklmnopqrstuvwxyzABCDEFGHIJKLMNOPQRSTUVWXYZ").
Definition one_letter (x : pystr) : tree := TJuxt [TSymbol (NLetter x) None None].
Ltac each H := cbn [map In list_ascii_of_string Ascii.N_of_ascii] in H; repeat (destruct H as [<-|H]; [vm_compute; reflexivity|]); destruct H.

Lemma d_and_letter x : In x alphabet_letters -> parse_text (100 :: [x]) = Found (MRel (RExpr (TJuxt [TDiff (100 :: [x])]))).
Proof. intro H. unfold alphabet_letters in H. each H. Qed.
Lemma dot_swallowed : exists a b, parse_text (a ++ u "\cdot " ++ b) = Found (MRel (RExpr (TTimes (one_letter a) (one_letter b)))) /\
  parse_text (b ++ u "\cdot " ++ a) = Found (MRel (RExpr (TJuxt [TDiff (u "d\cdot"); TSymbol (NLetter a) None None]))).
Proof. exists (u "c"), (u "d"). split; vm_compute; reflexivity. Qed.
Lemma single_letters x : In x alphabet_letters -> (exists t, parse_text [x] = Found t) <-> x <> 69.
Proof.
  intro H. unfold alphabet_letters in H. cbn [map In list_ascii_of_string] in H.
  repeat (destruct H as [<-|H]; [first [split; [discriminate|intros _; eexists; vm_compute; reflexivity]
    | split; [intros [t E]; vm_compute in E; discriminate|intro E; destruct E; reflexivity]]|]). destruct H.
Qed.

(** Texts of letters and words that the lexer cuts as intended *)
Lemma letter_sym x : In x letters -> In [x] symbols /\ w_sym [x] = w_letter x.
Proof.
  intro H. split; [apply in_or_app; left; apply (in_map (fun c => [c])), H|].
  assert (T : Forall (fun c => w_sym [c] = w_letter c) letters) by (repeat (apply Forall_cons; [reflexivity|]); apply Forall_nil).
  rewrite Forall_forall in T. apply T, H.
Qed.
Lemma parse_good ts : good ts -> parse_text (src ts) = parse ts.
Proof. intro G. unfold parse_text, lex. rewrite (lex_go_good ts G) by apply le_n. reflexivity. Qed.

Lemma t_fn_blank : Forall (fun f => fits (w_fn f) [32] /\ skipped (fn_kind f) = false) functions.
Proof. repeat (apply Forall_cons; [split; [intro; vm_compute; reflexivity|reflexivity]|]). apply Forall_nil. Qed.
Local Ltac table := repeat (apply Forall_cons || apply Forall_nil || (intro; vm_compute; reflexivity) || (vm_compute; reflexivity)).
Lemma t_letter_paren : Forall (fun c => fits (w_letter c) (u "(")) letters.
Proof. table. Qed.
Lemma letter_ender x : In x letters -> In (w_letter x) enders.
Proof. intro H. destruct (letter_sym x H) as [I E]. rewrite <- E. apply sym_ender, I. Qed.
Lemma letter_starter x : In x letters -> In (w_letter x) starters.
Proof. intro H. destruct (letter_sym x H) as [I E]. rewrite <- E. apply sym_starter, I. Qed.
Lemma good_letter x ld rest : In x letters -> ld = [] \/ ld = [32] -> follows [x] rest -> good rest -> good (tok (w_letter x) ld :: rest).
Proof. intros H L F G. apply good_ender; [apply letter_ender, H|apply lead_starter; [apply letter_starter, H|exact L]|exact F|exact G]. Qed.
Lemma good_fn f x ld rest : In f functions -> good (tok (w_letter x) [32] :: rest) -> may_lead ld (w_fn f) -> good (tok (w_fn f) ld :: tok (w_letter x) [32] :: rest).
Proof.
  intros H G L. pose proof t_fn_blank as T. rewrite Forall_forall in T. destruct (T _ H) as [F S]. apply good_cons; [split; [exact S|discriminate]|exact L| |exact G].
  right. exists [32], (src (tok (w_letter x) [] :: rest)). split; [reflexivity|exact F].
Qed.
Ltac each_fn H := unfold functions in H; cbn [In app map fst trig_names arc_names] in H; repeat (destruct H as [<-|H]; [vm_compute; reflexivity|]); destruct H.
Ltac memb := cbn; tauto.

Lemma function_takes_product f x y : In f functions -> In x letters -> In y letters ->
  parse_text (u "\" ++ f ++ u " " ++ [x] ++ u "\cdot " ++ [y]) = Found (MRel (RExpr (TJuxt [TFunc f [] None None (TTimes (one_letter [x]) (one_letter [y]))]))) /\
  parse_text (u "\" ++ f ++ u "(" ++ [x] ++ u ")\cdot " ++ [y]) = Found (MRel (RExpr (TTimes (TJuxt [TFunc f [] None None (one_letter [x])]) (one_letter [y])))).
Proof.
  intros Hf Hx Hy. assert (Gy : good [tok (w_op Cdot) []; tok (w_letter y) [32]]).
  { apply (good_spacer [32] (or_intror eq_refl)); [memb|apply no_lead|exists (w_letter y), []; split; [reflexivity|apply letter_starter, Hy]|apply good_letter; [exact Hy|auto|left; reflexivity|exact I]]. }
  split.
  - transitivity (parse_text (src [tok (w_fn f) []; tok (w_letter x) [32]; tok (w_op Cdot) []; tok (w_letter y) [32]])).
    { f_equal. }
    rewrite parse_good. { each_fn Hf. }
    apply good_fn; [exact Hf|apply good_letter; [exact Hx|auto|apply follow; memb|exact Gy]|apply no_lead].
  - transitivity (parse_text (src [tok (w_fn f) []; tok w_lparen []; tok (w_letter x) []; tok w_rparen []; tok (w_op Cdot) []; tok (w_letter y) [32]])).
    { f_equal. }
    rewrite parse_good. { each_fn Hf. }
    apply good_couple; [apply in_or_app; right; apply (in_map (fun f => (w_fn f, w_lparen))), Hf|apply no_lead|].
    apply good_opener; [memb|apply no_lead|exists (w_letter x), [tok w_rparen []; tok (w_op Cdot) []; tok (w_letter y) [32]]; split; [reflexivity|apply letter_starter, Hx]|].
    apply good_letter; [exact Hx|auto|apply follow; memb|]. apply good_ender; [|apply no_lead|apply follow; memb|exact Gy].
    apply in_or_app; right; memb.
Qed.
Lemma function_leaves_sum f x y : In f functions -> In x letters -> In y letters ->
  parse_text (u "\" ++ f ++ u " " ++ [x] ++ u "+" ++ [y]) = Found (MRel (RExpr (TAdd (TJuxt [TFunc f [] None None (one_letter [x])]) (one_letter [y])))).
Proof.
  intros Hf Hx Hy.
  transitivity (parse_text (src [tok (w_fn f) []; tok (w_letter x) [32]; tok (w_op Plus) []; tok (w_letter y) []])).
  { f_equal. }
  rewrite parse_good. { each_fn Hf. }
  apply good_fn; [exact Hf| |apply no_lead]. apply good_letter; [exact Hx|auto|apply follow; memb|].
  apply good_opener; [memb|apply no_lead|exists (w_letter y), []; split; [reflexivity|apply letter_starter, Hy]|].
  apply good_letter; [exact Hy|auto|left; reflexivity|exact I].
Qed.
Lemma good_applied x rest : In x letters -> good (tok w_lparen [] :: rest) -> good (tok (w_letter x) [] :: tok w_lparen [] :: rest).
Proof.
  intros H G. apply good_cons; [split; [reflexivity|discriminate]|apply no_lead| |exact G].
  pose proof t_letter_paren as T. rewrite Forall_forall in T. apply meets_word, (T _ H).
Qed.
Lemma symbol_in_parens x y : In x letters -> In y letters ->
  parse_text ([x] ++ u "(" ++ [y] ++ u ")") = Found (MRel (RExpr (TJuxt [TApply [x] None [y]]))).
Proof.
  intros Hx Hy. change ([x] ++ u "(" ++ [y] ++ u ")") with (src [tok (w_letter x) []; tok w_lparen []; tok (w_letter y) []; tok w_rparen []]).
  rewrite parse_good; [vm_compute; reflexivity|]. apply good_applied; [exact Hx|].
  apply good_opener; [memb|apply no_lead|exists (w_letter y), [tok w_rparen []]; split; [reflexivity|apply letter_starter, Hy]|].
  apply good_letter; [exact Hy|auto|apply follow; memb|]. apply good_ender; [apply in_or_app; right; memb|apply no_lead|left; reflexivity|exact I].
Qed.
Lemma sum_in_parens x y : In x letters -> In y letters ->
  parse_text ([x] ++ u "(" ++ [y] ++ u "+0)") =
  Found (MRel (RExpr (TJuxt [TSymbol (NLetter [x]) None None; TGroup (TAdd (one_letter [y]) (TJuxt [TNumber (u "0")]))]))).
Proof.
  intros Hx Hy. change ([x] ++ u "(" ++ [y] ++ u "+0)") with
    (src [tok (w_letter x) []; tok w_lparen []; tok (w_letter y) []; tok (w_op Plus) []; tok (w_digit 48) []; tok w_rparen []]).
  rewrite parse_good; [vm_compute; reflexivity|]. apply good_applied; [exact Hx|].
  apply good_opener; [memb|apply no_lead|eexists (w_letter y), _; split; [reflexivity|apply letter_starter, Hy]|].
  apply good_letter; [exact Hy|auto|apply follow; memb|].
  apply good_opener; [memb|apply no_lead|eexists (w_digit 48), _; split; [reflexivity|apply in_or_app; left; memb]|].
  change (tok (w_digit 48) [] :: [tok w_rparen []]) with (digits [] [48] ++ [tok w_rparen []]).
  apply good_digits; [split; [repeat constructor; discriminate|discriminate]|auto| |right; exists w_rparen, []; split; [reflexivity|apply in_or_app; right; apply in_or_app; left; memb]].
  apply good_ender; [apply in_or_app; right; memb|apply no_lead|left; reflexivity|exact I].
Qed.
