(** The parser reads arithmetic with the usual precedences *)
From Coq Require Import String List NArith ZArith Bool Lia.
From Verif Require Import PyStr PyStrTheory Regex Normalize NumTheory Monad L2S L2SValue Lexer Grammar GrammarTheory Arith ArithLex ArithPrep.
Import ListNotations.
Local Open Scope N_scope.
Local Open Scope par_scope.

(** * Parsers that succeed at once *)
Definition stop (ks : list N) (rest : list token) : Prop := match rest with [] => True | t :: _ => mem (kind t) ks = true end.
Definition tame (ts : list token) : Prop := Forall (fun t => kind t <> K_UNDERSCORE /\ kind t <> K_MATRIX_XRIGHTARROW) ts.
Lemma tame_odd ts : tame ts -> ~ odd ts.
Proof. intros T O. induction O as [t l H|t l H IH]; inversion T; subst; [destruct H; tauto|auto]. Qed.
(** On c followed by anything that begins with one of the kinds, p gives a and leaves the rest *)
Definition runs {A} (n : nat) (p : P A) (c : list token) (a : A) (ks : list N) : Prop :=
  forall rest k r, (List.length (c ++ rest) <= n)%nat -> tame rest -> stop ks rest -> k a rest = Found r -> p (c ++ rest) k = Found r.
Definition blocked {A} (n : nat) (p : P A) (c : list token) (ks : list N) : Prop :=
  forall rest k, (List.length (c ++ rest) <= n)%nat -> tame rest -> stop ks rest -> p (c ++ rest) k = NoParse.
Definition dead {A} (p : P A) (ks : list N) : Prop := forall rest k, stop ks rest -> p rest k = NoParse.
Definition after (ks : list N) (c : list token) (ks' : list N) : Prop := forall rest, stop ks' rest -> stop ks (c ++ rest).

Lemma r_ret {A} n (a : A) ks : runs n (pret a) [] a ks.
Proof. intros rest k r L T S E. exact E. Qed.
Lemma r_one n ks t ks' : mem (kind t) ks = true -> runs n (pone ks) [t] t ks'.
Proof. intros H rest k r L T S E. cbn [app pone]. rewrite H. exact E. Qed.
Lemma r_tok n w ld ks' : runs n (ptok (fst w)) [tok w ld] (tok w ld) ks'.
Proof. apply r_one. cbn. rewrite N.eqb_refl. reflexivity. Qed.
Lemma r_mono {A} n n' (p : P A) c a ks : (n' <= n)%nat -> runs n p c a ks -> runs n' p c a ks.
Proof. intros L H rest k r L' T S E. apply H; try assumption. lia. Qed.
Lemma r_bind {A B} n (p : P A) (f : A -> P B) c a c' b ks ks' :
  runs n p c a ks -> tame c' -> after ks c' ks' -> runs n (f a) c' b ks' -> runs n (pbind p f) (c ++ c') b ks'.
Proof.
  intros Hp T Af Hf rest k r L Tr S E. unfold pbind. rewrite <- app_assoc in *. apply Hp; [exact L| |apply Af, S|].
  - apply Forall_app. split; assumption.
  - apply Hf; try assumption. rewrite app_length in L. lia.
Qed.
(** after a token, the input is shorter *)
Lemma r_step {B} n ks (f : token -> P B) t c' b ks' :
  mem (kind t) ks = true -> (forall n', (n' < n)%nat -> runs n' (f t) c' b ks') -> runs n (pbind (pone ks) f) (t :: c') b ks'.
Proof.
  intros Ht Hf rest k r L Tr S E. unfold pbind. cbn [app pone]. rewrite Ht. cbn [app List.length] in L.
  apply (Hf (List.length (c' ++ rest))); [lia|lia|assumption|assumption|assumption].
Qed.
Lemma r_tstep {B} n w ld (f : token -> P B) c' b ks' :
  (forall n', (n' < n)%nat -> runs n' (f (tok w ld)) c' b ks') -> runs n (pbind (ptok (fst w)) f) (tok w ld :: c') b ks'.
Proof. apply r_step. cbn. rewrite N.eqb_refl. reflexivity. Qed.
Lemma r_left {A} n (p q : P A) c a ks : runs n p c a ks -> runs n (p <|> q) c a ks.
Proof. intros H rest k r L T S E. unfold palt. rewrite (H rest k r L T S E). reflexivity. Qed.
Lemma r_right {A} n (p q : P A) c a ks : blocked n p c ks -> runs n q c a ks -> runs n (p <|> q) c a ks.
Proof. intros B H rest k r L T S E. unfold palt. rewrite (B rest k L T S). apply H; assumption. Qed.
Lemma r_map {A B} n (f : A -> B) (p : P A) c a ks : runs n p c a ks -> runs n (pmap f p) c (f a) ks.
Proof. intros H rest k r L T S E. unfold pmap, pbind, pret. apply H; assumption. Qed.
Lemma r_some {A} n (p : P A) c a ks : runs n p c a ks -> runs n (popt p) c (Some a) ks.
Proof. intro H. apply r_left, r_map, H. Qed.
Lemma r_none {A} n (p : P A) ks : dead p ks -> runs n (popt p) [] None ks.
Proof. intro D. apply r_right; [|apply r_ret]. intros rest k L T S. apply (D rest). exact S. Qed.
Lemma r_span {A} n (p : P A) c a ks : runs n p c a ks -> runs n (pspan p) c (a, c) ks.
Proof.
  intros H rest k r L T S E. unfold pspan. apply H; try assumption. rewrite app_length, Nat.add_sub, firstn_app, firstn_all, Nat.sub_diag, app_nil_r. exact E.
Qed.
Lemma r_text {A} n (p : P A) c a ks : runs n p c a ks -> runs n (ptext p) c (get_text c) ks.
Proof. intro H. unfold ptext. change (get_text c) with ((fun r : A * list token => get_text (snd r)) (a, c)). apply r_map, r_span, H. Qed.
(** loops *)
Definition many_runs {A} (n : nat) (p : P A) (c : list token) (l : list A) (ks : list N) : Prop :=
  forall i rest k r, (List.length (c ++ rest) <= i)%nat -> (List.length (c ++ rest) <= n)%nat -> tame rest -> stop ks rest -> k l rest = Found r -> pmany_n i p (c ++ rest) k = Found r.
Lemma many_nil {A} n (p : P A) ks : dead p ks -> many_runs n p [] [] ks.
Proof. intros D i rest k r Li L T S E. destruct i; [exact E|]. cbn [pmany_n app]. unfold palt, pbind. rewrite (D rest) by exact S. exact E. Qed.
Lemma many_cons {A} n (p : P A) c a c' l ks ks' : c <> [] -> runs n p c a ks -> tame c' -> after ks c' ks' -> many_runs n p c' l ks' -> many_runs n p (c ++ c') (a :: l) ks'.
Proof.
  intros Nc Hp T Af Hm i rest k r Li L Tr S E. rewrite <- app_assoc in *. rewrite app_length in Li. assert (0 < List.length c)%nat by (destruct c; [congruence|cbn; lia]).
  destruct i as [|i]; [lia|]. cbn [pmany_n]. unfold palt, pbind at 1. rewrite (Hp (c' ++ rest) _ r); [reflexivity|exact L|apply Forall_app; auto|apply Af, S|].
  unfold pbind. apply Hm; try assumption; [lia|rewrite app_length in L; lia].
Qed.
Lemma r_many {A} n (p : P A) c l ks : many_runs n p c l ks -> runs n (pmany p) c l ks.
Proof. intros H rest k r L T S E. unfold pmany. apply H; try assumption. lia. Qed.
Lemma stop_sub ks ks' : forallb (fun k => mem k ks) ks' = true -> after ks [] ks'.
Proof.
  intros I [|t rest] S; [exact Logic.I|]. cbn in *. unfold mem at 1 in S. apply existsb_exists in S. destruct S as (x & Hx & E).
  apply N.eqb_eq in E. rewrite forallb_forall in I. rewrite E. apply I, Hx.
Qed.
Lemma after_cons ks t c ks' : mem (kind t) ks = true -> after ks (t :: c) ks'.
Proof. intros H rest S. exact H. Qed.
Lemma r_less {A} n (p : P A) c a ks ks' : forallb (fun k => mem k ks) ks' = true -> runs n p c a ks -> runs n p c a ks'.
Proof. intros I H rest k r L T S E. apply H; auto. apply (stop_sub _ _ I rest S). Qed.
Lemma d_less {A} (p : P A) ks ks' : forallb (fun k => mem k ks) ks' = true -> dead p ks -> dead p ks'.
Proof. intros I D rest k S. apply D, (stop_sub _ _ I rest S). Qed.
(** the second part is shorter *)
Lemma r_then {A B} n (p : P A) (f : A -> P B) c a c' b ks ks' :
  runs n p c a ks -> c <> [] -> tame c' -> after ks c' ks' -> (forall n', (n' < n)%nat -> runs n' (f a) c' b ks') -> runs n (pbind p f) (c ++ c') b ks'.
Proof.
  intros Hp Nc T Af Hf rest k r L Tr S E. unfold pbind. rewrite <- app_assoc in *. apply Hp; [exact L| |apply Af, S|].
  - apply Forall_app. split; assumption.
  - apply (Hf (List.length (c' ++ rest))); try assumption; [|lia]. rewrite app_length in L. destruct c; [congruence|cbn in L; lia].
Qed.
(** nothing more is taken *)
Lemma r_end {A B} n (p : P A) (f : A -> P B) c a b ks : runs n p c a ks -> runs n (f a) [] b ks -> runs n (pbind p f) c b ks.
Proof. intros H H'. rewrite <- (app_nil_r c). apply (r_bind n p f c a [] b ks); auto. constructor. intros rest S. exact S. Qed.
Lemma r_skip {A B} n (p : P A) (f : A -> P B) a c b ks ks' :
  runs n p [] a ks -> tame c -> after ks c ks' -> runs n (f a) c b ks' -> runs n (pbind p f) c b ks'.
Proof. intros. apply (r_bind n p f [] a c b ks); auto. Qed.
Lemma r_ptoks n ts ks : runs n (ptoks (map kind ts)) ts tt ks.
Proof.
  induction ts as [|t ts IH]; cbn [map ptoks]; [apply r_ret|]. apply r_step; [cbn; rewrite N.eqb_refl; reflexivity|].
  intros n' L. apply (r_mono n); [lia|exact IH].
Qed.
(** the first part does not mind what follows *)
Definition sure {A} (n : nat) (p : P A) (c : list token) (a : A) : Prop := forall ks, runs n p c a ks.
Lemma stop_self rest : exists ks, stop ks rest.
Proof. destruct rest as [|t rest]; [exists []; exact I|]. exists [kind t]. cbn. rewrite N.eqb_refl. reflexivity. Qed.
Lemma r_seq {A B} n (p : P A) (f : A -> P B) c a c' b ks' :
  sure n p c a -> c <> [] -> tame c' -> (forall n', (n' < n)%nat -> runs n' (f a) c' b ks') -> runs n (pbind p f) (c ++ c') b ks'.
Proof.
  intros Hp Nc T Hf rest k r L Tr S E. unfold pbind. rewrite <- app_assoc in *. destruct (stop_self (c' ++ rest)) as [ks Hs].
  apply (Hp ks); [exact L| |exact Hs|].
  - apply Forall_app. split; assumption.
  - apply (Hf (List.length (c' ++ rest))); try assumption; [|lia]. rewrite app_length in L. destruct c; [congruence|cbn in L; lia].
Qed.
Lemma r_around n (p : P tree) o c cl t S : o <> [] -> (forall n', (n' < n)%nat -> runs n' p c t S) -> tame c -> tame cl -> (forall ks, after S cl ks) ->
  sure n (around (map kind o) (map kind cl) p) (o ++ c ++ cl) t.
Proof.
  intros No H Tc Tl Af ks. unfold around. apply (r_seq n _ _ o tt (c ++ cl) t ks).
  - intro. apply r_ptoks.
  - exact No.
  - apply Forall_app; auto.
  - intros n' L. apply (r_bind n' p _ c t cl t S ks); auto. apply (r_end n' _ _ cl tt t ks); [apply r_ptoks|apply r_ret].
Qed.
Lemma tame_cons t c : negb (mem (kind t) [K_UNDERSCORE; K_MATRIX_XRIGHTARROW]) = true -> tame c -> tame (t :: c).
Proof.
  intros H T. constructor; [|exact T]. apply negb_true_iff in H. cbn in H. apply orb_false_iff in H. destruct H as [H1 H2].
  apply orb_false_iff in H2. destruct H2 as [H2 _]. apply N.eqb_neq in H1, H2. auto.
Qed.
Lemma tame_app a b : tame a -> tame b -> tame (a ++ b).
Proof. intros. apply Forall_app. auto. Qed.
Lemma tame_nil : tame [].
Proof. constructor. Qed.
Ltac tam := repeat first [assumption | apply tame_nil | apply tame_app | apply tame_cons; [reflexivity|]].
Lemma r_braced {A} n (p : P A) c t S l1 l2 : (forall n', (n' < n)%nat -> runs n' p c t S) -> tame c -> mem K_R_BRACE S = true ->
  sure n (_ <~ ptok K_L_BRACE ;; x <~ p ;; _ <~ ptok K_R_BRACE ;; pret x) (tok w_lbrace l1 :: c ++ [tok w_rbrace l2]) t.
Proof.
  intros H T M ks. apply (r_tstep n w_lbrace l1). intros n' L. apply (r_bind n' p _ c t [tok w_rbrace l2] t S ks); [apply H, L|tam|apply after_cons, M|].
  apply (r_end n' _ _ _ (tok w_rbrace l2)); [apply (r_tok n' w_rbrace)|apply r_ret].
Qed.

(** Tables of kinds *)
Definition C0 : list N := [K_R_PAREN; K_R_BRACE; K_R_BRACKET; K_R_RIGHT; K_R_FLOOR; K_R_CEIL] ++ rel_ops.
Definition C1 : list N := C0 ++ [K_ADD; K_SUB].
Definition C2 : list N := C1 ++ mul_ops.
Definition C4 : list N := C2 ++ [K_BANG].
Definition C5 : list N := C4 ++ [K_CARET].
Definition J : list N :=
  [K_LETTER_NO_E; K_GREEK_CMD; K_SYMBOL; K_L_PAREN; K_EXP_E; K_CMD_FRAC; K_CMD_BINOM; K_FUNC_SQRT; K_L_LEFT; K_L_FLOOR; K_L_CEIL] ++ map snd fn_kinds.
(** after a name, parentheses would be its arguments *)
Definition JN : list N :=
  [K_LETTER_NO_E; K_GREEK_CMD; K_SYMBOL; K_EXP_E; K_CMD_FRAC; K_CMD_BINOM; K_FUNC_SQRT; K_L_FLOOR; K_L_CEIL] ++ map snd fn_kinds.
(** What the first token decides *)
Ltac kinds H := repeat (apply orb_true_iff in H; destruct H as [H|H]; [apply N.eqb_eq in H; subst; reflexivity|]); discriminate H.
Ltac dead_by_first := intros [|[k0 s0 l0] rest0] kk0 Hstop; [reflexivity|]; cbn [stop kind] in Hstop; unfold mem in Hstop; cbn in Hstop; kinds Hstop.
Section Dead.
Variable rec : rules_at.
Lemma dead_exp_op : dead (exp_op rec) (C4 ++ J).
Proof. dead_by_first. Qed.
Lemma dead_postfix_op : dead (postfix_op rec) (C2 ++ J).
Proof. dead_by_first. Qed.
Lemma dead_postfix : dead (postfix rec true) C2.
Proof. dead_by_first. Qed.
End Dead.
Section Dead2.
Variable rec : rules_at.
Lemma dead_subexpr : dead (subexpr rec) (C5 ++ J).
Proof. dead_by_first. Qed.
Lemma dead_supexpr : dead (supexpr rec) (C4 ++ J).
Proof. dead_by_first. Qed.
End Dead2.

(** * The levels *)
Section Levels.
Definition X (n : nat) := rules_upto n.
Definition A6 (c : list token) (t : tree) : Prop := forall n, runs n (comp (X n) true) c t C5.
Definition A5 (c : list token) (t : tree) : Prop := forall n, runs n (exp (X n) true) c t C4.
Definition A4 (c : list token) (t : tree) : Prop := forall n d l ks,
  tame d -> many_runs n (postfix_op (X n)) d l ks -> after C4 d ks -> runs n (postfix (X n) true) (c ++ d) (fold_left (fun t f => f t) l t) ks.
(** the same, if another factor may come next *)
Definition B6 (c : list token) (t : tree) : Prop := forall n, runs n (comp (X n) true) c t (C5 ++ J).
Definition B5 (j : list N) (c : list token) (t : tree) : Prop := forall n, runs n (exp (X n) true) c t (C4 ++ j).
Definition B4 (j : list N) (c : list token) (t : tree) : Prop := forall n d l ks,
  tame d -> many_runs n (postfix_op (X n)) d l ks -> after (C4 ++ j) d ks -> runs n (postfix (X n) true) (c ++ d) (fold_left (fun t f => f t) l t) ks.
Definition A3 (c : list token) (l : list tree) : Prop :=
  (forall n, runs n (pplus (postfix (X n) true)) c l C2) /\ forall n, many_runs n (postfix (X n) true) c l C2.
Definition A2 (c : list token) (t : tree) : Prop := forall n, runs n (unary (X n)) c t C2.
Definition step (p : P tree) (ops : list N) : P (N * tree) := o <~ pone ops ;; b <~ p ;; pret (kind o, b).
Definition open (p : P tree) (ops : list N) (node : N -> tree -> tree -> tree) (ks0 : list N) (n : nat) (c : list token) (t : tree) : Prop :=
  forall d l ks, tame d -> many_runs n (step p ops) d l ks -> after ks0 d ks ->
  runs n (chain p ops node) (c ++ d) (fold_left (fun t ob => node (fst ob) t (snd ob)) l t) ks.
Definition A1 (c : list token) (t : tree) : Prop := forall n, open (unary (X n)) mul_ops mul_node C2 n c t.
Definition A0 (c : list token) (t : tree) : Prop := forall n, open (mp (X n)) [K_ADD; K_SUB] add_node C1 n c t.
Definition AE (c : list token) (t : tree) : Prop := forall n, runs n (additive (X n)) c t C0.

Lemma lift5_gen n c t ks ks' : forallb (fun k => mem k ks) ks' = true -> forallb (fun k => mem k (C4 ++ J)) ks' = true ->
  runs n (comp (X n) true) c t ks -> runs n (exp (X n) true) c t ks'.
Proof.
  intros I I' H. unfold exp. apply (r_end n _ _ c t); [apply (r_less _ _ _ _ ks _ I H)|].
  apply (r_end n _ _ [] []); [|apply r_ret]. apply r_many, many_nil, (d_less _ _ _ I'), dead_exp_op.
Qed.
Lemma lift5 c t : A6 c t -> A5 c t.
Proof. intros H n. apply (lift5_gen n c t C5); [reflexivity|reflexivity|apply H]. Qed.
Lemma lift4 c t : A5 c t -> A4 c t.
Proof.
  intros H n d l ks T Hm Af. unfold postfix. apply (r_bind n _ _ c t d _ C4 ks); [apply H|exact T|exact Af|].
  apply (r_end n _ _ d l); [apply r_many, Hm|apply r_ret].
Qed.
Lemma B6_A6 c t : B6 c t -> A6 c t.
Proof. intros H n. apply (r_less _ _ _ _ (C5 ++ J)); [reflexivity|apply H]. Qed.
Lemma B5_A5 j c t : B5 j c t -> A5 c t.
Proof. intros H n. apply (r_less _ _ _ _ (C4 ++ j)); [|apply H]. apply forallb_forall. intros x Hx. apply existsb_exists. exists x. split; [apply in_or_app; left; exact Hx|apply N.eqb_refl]. Qed.
Lemma B4_A4 j c t : B4 j c t -> A4 c t.
Proof.
  intros H n d l ks T Hm Af. apply H; [exact T|exact Hm|]. intros rest S. specialize (Af rest S). destruct (d ++ rest) as [|x r]; [exact I|].
  cbn [stop] in *. unfold mem in *. rewrite existsb_app, Af. reflexivity.
Qed.
Lemma lift5j j c t : j = J \/ j = JN -> B6 c t -> B5 j c t.
Proof. intros Hj H n. destruct Hj as [-> | ->]; (apply (lift5_gen n c t (C5 ++ J)); [reflexivity|reflexivity|apply H]). Qed.
Lemma lift4j j c t : B5 j c t -> B4 j c t.
Proof.
  intros H n d l ks T Hm Af. unfold postfix. apply (r_bind n _ _ c t d _ (C4 ++ j) ks); [apply H|exact T|exact Af|].
  apply (r_end n _ _ d l); [apply r_many, Hm|apply r_ret].
Qed.
Lemma close4j j c t : j = J \/ j = JN -> B4 j c t -> forall n, runs n (postfix (X n) true) c t (C2 ++ j).
Proof.
  intros Hj H n. specialize (H n [] [] (C2 ++ j)). rewrite app_nil_r in H. apply H; [constructor| |destruct Hj as [-> | ->]; apply stop_sub; reflexivity].
  apply many_nil, (d_less _ (C2 ++ J)); [destruct Hj as [-> | ->]; reflexivity|apply dead_postfix_op].
Qed.
Lemma close4 c t : A4 c t -> forall n, runs n (postfix (X n) true) c t C2.
Proof.
  intros H n. specialize (H n [] [] C2). rewrite app_nil_r in H. apply H; [constructor| |apply stop_sub; reflexivity].
  apply many_nil, (d_less _ (C2 ++ J)); [reflexivity|apply dead_postfix_op].
Qed.
Definition runs_all (j : list N) (c : list token) (t : tree) : Prop := forall n, runs n (postfix (X n) true) c t (C2 ++ j).
Lemma lift3 c t : A4 c t -> A3 c [t].
Proof.
  intro H. split.
  { intro n. unfold pplus. apply (r_end n _ _ c t); [apply close4, H|]. apply (r_end n _ _ [] []); [|apply r_ret]. apply r_many, many_nil, dead_postfix. }
  intro n. assert (Ne : c <> []).
  { intros ->. pose proof (close4 _ _ H 0%nat [] (fun _ _ => Found (MRel (RExpr t))) (MRel (RExpr t)) (le_n 0) (Forall_nil _) I eq_refl) as E. discriminate E. }
  rewrite <- (app_nil_r c). apply (many_cons n _ c t [] [] C2); [exact Ne|apply close4, H|apply tame_nil|apply stop_sub; reflexivity|apply many_nil, dead_postfix].
Qed.
Lemma plus3 c l : A3 c l -> forall n, runs n (pplus (postfix (X n) true)) c l C2.
Proof.
  intros [H _]. exact H.
Qed.
(** one more factor in front *)
Lemma more3 j c t c' l : runs_all j c t -> A3 c' l -> c <> [] -> tame c' -> (forall ks, after (C2 ++ j) c' ks) -> A3 (c ++ c') (t :: l).
Proof.
  intros H [_ H'] Ne T Af. split.
  { intro n. unfold pplus. apply (r_bind n _ _ c t c' _ (C2 ++ j)); [apply H|exact T|apply Af|]. apply (r_end n _ _ c' l); [apply r_many, H'|apply r_ret]. }
  intro n. apply (many_cons n _ c t c' l (C2 ++ j)); [exact Ne|apply H|exact T|apply Af|apply H'].
Qed.
(** no sign in front *)
Definition unsigned (c : list token) : Prop := exists t r, c = t :: r /\ mem (kind t) (K_DIGIT :: J) = true.
Definition U : list N := K_DIGIT :: J.
Lemma unsigned_after c ks : unsigned c -> after U c ks.
Proof. intros (t & r & -> & H) rest S. exact H. Qed.
Lemma dead_sign : dead (pone [K_ADD; K_SUB]) U.
Proof. dead_by_first. Qed.
Lemma lift2 c l : A3 c l -> unsigned c -> tame c -> A2 c (TJuxt l).
Proof.
  intros H Un T n. unfold unary. apply (r_skip n _ _ [] c _ U); [apply r_many, many_nil, dead_sign|exact T|apply unsigned_after, Un|].
  apply (r_end n _ _ c l); [apply plus3, H|apply r_ret].
Qed.
Lemma neg2 ld c l : A3 c l -> unsigned c -> tame c -> A2 (tok w_minus ld :: c) (TMinus (TJuxt l)).
Proof.
  intros H Un T n. unfold unary. apply (r_bind n _ _ [tok w_minus ld] [tok w_minus ld] c _ U); [|exact T|apply unsigned_after, Un|].
  - apply r_many. apply (many_cons n _ [tok w_minus ld] _ [] [] U); [discriminate|apply r_one; reflexivity|constructor|apply stop_sub; reflexivity|].
    apply many_nil, dead_sign.
  - apply (r_end n _ _ c l); [apply plus3, H|apply r_ret].
Qed.
Lemma open_start p ops node ks0 n c t : runs n p c t ks0 -> open p ops node ks0 n c t.
Proof.
  intros H d l ks T Hm Af. unfold chain. apply (r_bind n _ _ c t d _ ks0 ks); [apply H|exact T|exact Af|].
  apply (r_end n _ _ d l); [apply r_many, Hm|apply r_ret].
Qed.
Lemma open_more p ops node ks0 n c t o c' t' : open p ops node ks0 n c t -> runs n p c' t' ks0 -> tame (o :: c') -> mem (kind o) ops = true ->
  mem (kind o) ks0 = true -> open p ops node ks0 n (c ++ o :: c') (node (kind o) t t').
Proof.
  intros H H' T M M' d l ks Td Hm Af. rewrite <- app_assoc. cbn [app].
  apply (H (o :: c' ++ d) ((kind o, t') :: l) ks).
  - inversion T; subst. constructor; [assumption|]. apply Forall_app; auto.
  - change (o :: c' ++ d) with ((o :: c') ++ d). apply (many_cons n _ (o :: c') (kind o, t') d l ks0 ks); [discriminate| |exact Td|exact Af|exact Hm].
    unfold step. apply r_step; [exact M|]. intros n' L. apply (r_end n' _ _ c' t'); [apply (r_mono n); [lia|exact H']|apply r_ret].
  - apply after_cons, M'.
Qed.
Lemma open_close p ops node ks0 n c t ks : open p ops node ks0 n c t -> forallb (fun k => mem k ks0) ks = true -> dead (step p ops) ks -> runs n (chain p ops node) c t ks.
Proof.
  intros H I D. specialize (H [] [] ks). rewrite app_nil_r in H. apply H; [constructor|apply many_nil, D|apply stop_sub, I].
Qed.
Lemma dead_mul p : dead (step p mul_ops) C1.
Proof. dead_by_first. Qed.
Lemma dead_add p : dead (step p [K_ADD; K_SUB]) C0.
Proof. dead_by_first. Qed.
Lemma lift1 c t : A2 c t -> A1 c t.
Proof. intros H n. apply open_start, H. Qed.
Lemma close1 c t : A1 c t -> forall n, runs n (mp (X n)) c t C1.
Proof. intros H n. apply (open_close _ _ _ C2); [apply H|reflexivity|apply dead_mul]. Qed.
Lemma lift0 c t : A1 c t -> A0 c t.
Proof. intros H n. apply open_start, close1, H. Qed.
Lemma close0 c t : A0 c t -> AE c t.
Proof. intros H n. apply (open_close _ _ _ C1); [apply H|reflexivity|apply dead_add]. Qed.
(** the recursive calls *)
Lemma inner c t : AE c t -> forall n n', (n' < n)%nat -> runs n' (r_expr (X n)) c t C0.
Proof. intros H [|m] n' L; [lia|]. apply (r_mono m); [lia|]. apply H. Qed.
End Levels.

(** * The forms *)
Section Forms.
Ltac blk := intros rest0 kk0 Hl0 Ht0 Hs0; reflexivity.
Ltac skip := repeat (apply r_right; [solve [blk]|]).
Local Opaque rules_upto.
Lemma palts_left {A} n (p : P A) l c a ks : runs n p c a ks -> runs n (palts (p :: l)) c a ks.
Proof. intro H. destruct l; [exact H|apply r_left, H]. Qed.
Lemma palts_right {A} n (p q : P A) l c a ks : blocked n p c ks -> runs n (palts (q :: l)) c a ks -> runs n (palts (p :: q :: l)) c a ks.
Proof. intros B H. apply r_right; assumption. Qed.
Variables (c : list token) (t : tree).
Hypothesis T : tame c.
Hypothesis H : AE c t.
Lemma f_paren ld : B6 (paren_toks ld c) (TGroup t).
Proof.
  intro n. unfold comp. apply r_left. unfold brackets, group_pairs, sized. cbn [map app fst snd]. apply palts_left. apply r_map.
  apply (r_around n _ [tok w_lparen ld] c [tok w_rparen []] t C0); [discriminate|apply inner, H|exact T|tam|intro; apply after_cons; reflexivity].
Qed.
Lemma f_abs ld : B6 (tok w_left ld :: tok w_bar [] :: c ++ [tok w_right []; tok w_bar []]) (TAbs t).
Proof.
  intro n. unfold comp. skip. apply r_left. unfold brackets, abs_pairs, sized. cbn [map app fst snd].
  repeat (apply palts_right; [solve [blk]|]). apply palts_left. apply r_map.
  apply (r_around n _ [tok w_left ld; tok w_bar []] c [tok w_right []; tok w_bar []] t C0); [discriminate|apply inner, H|exact T|tam|intro; apply after_cons; reflexivity].
Qed.
Lemma f_floor ld : B6 (tok w_lfloor ld :: c ++ [tok w_rfloor []]) (TFloor t).
Proof.
  intro n. unfold comp. skip. apply r_left. unfold brackets, floor_pairs, sized. cbn [map app fst snd]. apply palts_left. apply r_map.
  apply (r_around n _ [tok w_lfloor ld] c [tok w_rfloor []] t C0); [discriminate|apply inner, H|exact T|tam|intro; apply after_cons; reflexivity].
Qed.
Lemma f_ceil ld : B6 (tok w_lceil ld :: c ++ [tok w_rceil []]) (TCeil t).
Proof.
  intro n. unfold comp. skip. apply r_left. unfold brackets, ceil_pairs, sized. cbn [map app fst snd]. apply palts_left. apply r_map.
  apply (r_around n _ [tok w_lceil ld] c [tok w_rceil []] t C0); [discriminate|apply inner, H|exact T|tam|intro; apply after_cons; reflexivity].
Qed.
Lemma braced_c n l1 l2 : sure n (_ <~ ptok K_L_BRACE ;; x <~ r_expr (X n) ;; _ <~ ptok K_R_BRACE ;; pret x) (tok w_lbrace l1 :: c ++ [tok w_rbrace l2]) t.
Proof. apply (r_braced n _ c t C0); [apply inner, H|exact T|reflexivity]. Qed.
Lemma braced_mono n n' l1 l2 : (n' <= n)%nat -> sure n' (_ <~ ptok K_L_BRACE ;; x <~ r_expr (X n) ;; _ <~ ptok K_R_BRACE ;; pret x) (tok w_lbrace l1 :: c ++ [tok w_rbrace l2]) t.
Proof. intros L ks. apply (r_mono n); [exact L|apply braced_c]. Qed.
Lemma f_sup n n' l0 l1 l2 : (n' <= n)%nat -> sure n' (supexpr (X n)) (tok w_caret l0 :: tok w_lbrace l1 :: c ++ [tok w_rbrace l2]) t.
Proof.
  intros L ks. unfold supexpr. apply (r_tstep n' w_caret). intros n1 L1. apply r_right.
  - destruct n as [|n0]; [lia|]. blk.
  - apply braced_mono. lia.
Qed.
Lemma f_pow n : runs n (exp_op (X n)) (tok w_caret [] :: tok w_lbrace [] :: c ++ [tok w_rbrace []]) t (C4 ++ J).
Proof.
  unfold exp_op. apply (r_tstep n w_caret). intros n1 L1. apply (r_end n1 _ _ _ t).
  - apply r_right; [blk|]. apply braced_mono. lia.
  - apply (r_end n1 _ _ [] None); [apply r_none, (d_less _ (C5 ++ J)); [reflexivity|apply dead_subexpr]|apply r_ret].
Qed.
Lemma f_e ld : B6 (tok w_e ld :: tok w_caret [] :: tok w_lbrace [] :: c ++ [tok w_rbrace []]) (TExp (Some t)).
Proof.
  intro n. unfold comp. skip. apply r_left. unfold func. skip. unfold func_e.
  apply (r_tstep n w_e). intros n1 L1. apply (r_end n1 _ _ _ (Some t)); [apply r_some, f_sup; lia|apply r_ret].
Qed.
Lemma f_sqrt ld : B6 (tok w_sqrt ld :: tok w_lbrace [] :: c ++ [tok w_rbrace []]) (TSqrt t None).
Proof.
  intro n. unfold comp. skip. apply r_left. unfold func. skip. apply r_left. unfold func_sqrt.
  apply (r_tstep n w_sqrt). intros n1 L1. apply (r_skip n1 _ _ None _ _ [K_L_BRACE]); [apply r_none; dead_by_first|tam|apply after_cons; reflexivity|].
  apply (r_end n1 _ _ _ t); [|apply r_ret]. apply r_right; [blk|]. apply braced_mono. lia.
Qed.
End Forms.
Ltac blk := intros rest0 kk0 Hl0 Ht0 Hs0; reflexivity.
Ltac skip := repeat (apply r_right; [solve [blk]|]).
Lemma r_braced_span n (p : P tree) c t S l1 l2 : (forall n', (n' < n)%nat -> runs n' p c t S) -> tame c -> mem K_R_BRACE S = true ->
  sure n (_ <~ ptok K_L_BRACE ;; x <~ pspan p ;; _ <~ ptok K_R_BRACE ;; pret x) (tok w_lbrace l1 :: c ++ [tok w_rbrace l2]) (t, c).
Proof. intros H T M. apply (r_braced n _ c (t, c) S); [|exact T|exact M]. intros n' L. apply r_span, H, L. Qed.
(** never d/dx *)
Lemma lower_none c : (forall x, In x c -> kind x <> K_DIFFERENTIAL /\ is_partial x = false) -> lower_info c = DNone.
Proof.
  intro H. destruct c as [|x [|y [|z c]]]; try reflexivity; cbn [lower_info].
  - destruct (H x (or_introl eq_refl)) as [Hk _]. apply N.eqb_neq in Hk. rewrite Hk. reflexivity.
  - destruct (H x (or_introl eq_refl)) as [_ Hp]. rewrite Hp. reflexivity.
Qed.
Section Pair.
Local Opaque rules_upto.
Variables (c : list token) (t : tree) (c' : list token) (t' : tree).
Hypothesis T : tame c.
Hypothesis H : AE c t.
Hypothesis T' : tame c'.
Hypothesis H' : AE c' t'.
Lemma f_frac ld : lower_info c' = DNone ->
  B6 (tok w_frac ld :: tok w_lbrace [] :: c ++ tok w_rbrace [] :: tok w_lbrace [] :: c' ++ [tok w_rbrace []]) (TFrac t t' (upper_info c) DNone).
Proof.
  intros Lo n. unfold comp. skip. apply r_left. unfold atom. skip. apply r_left. unfold frac.
  apply (r_tstep n w_frac). intros n1 L1.
  replace (tok w_lbrace [] :: c ++ tok w_rbrace [] :: tok w_lbrace [] :: c' ++ [tok w_rbrace []])
    with ((tok w_lbrace [] :: c ++ [tok w_rbrace []]) ++ tok w_lbrace [] :: c' ++ [tok w_rbrace []]) by (cbn [app]; rewrite <- app_assoc; reflexivity).
  apply (r_seq n1 _ _ _ (t, Some c)); [|discriminate|tam|].
  - intro ks. apply r_right; [blk|]. apply (r_map n1 (fun r : tree * list token => (fst r, Some (snd r))) _ _ (t, c)).
    apply (r_braced_span n1 _ c t C0); [intros; apply inner; [exact H|lia]|exact T|reflexivity].
  - intros n2 L2. apply (r_end n2 _ _ _ (t', Some c')).
    + apply r_right; [blk|]. apply (r_map n2 (fun r : tree * list token => (fst r, Some (snd r))) _ _ (t', c')).
      apply (r_braced_span n2 _ c' t' C0); [intros; apply inner; [exact H'|lia]|exact T'|reflexivity].
    + cbn [fst snd]. rewrite Lo. apply r_ret.
Qed.
Lemma f_binom ld :
  B6 (tok w_binom ld :: tok w_lbrace [] :: c ++ tok w_rbrace [] :: tok w_lbrace [] :: c' ++ [tok w_rbrace []]) (TBinom t t').
Proof.
  intros n. unfold comp. skip. apply r_left. unfold binom. skip.
  apply (r_tstep n w_binom). intros n1 L1.
  replace (tok w_lbrace [] :: c ++ tok w_rbrace [] :: tok w_lbrace [] :: c' ++ [tok w_rbrace []])
    with ((tok w_lbrace [] :: c ++ [tok w_rbrace []]) ++ tok w_lbrace [] :: c' ++ [tok w_rbrace []]) by (cbn [app]; rewrite <- app_assoc; reflexivity).
  apply (r_seq n1 _ _ _ t); [apply braced_mono; [assumption|assumption|lia]|discriminate|tam|].
  intros n2 L2. apply (r_end n2 _ _ _ t'); [apply braced_mono; [assumption|assumption|lia]|apply r_ret].
Qed.
Lemma f_root ld :
  B6 (tok w_sqrt ld :: tok w_lbracket [] :: c ++ tok w_rbracket [] :: tok w_lbrace [] :: c' ++ [tok w_rbrace []]) (TSqrt t' (Some t)).
Proof.
  intros n. unfold comp. skip. apply r_left. unfold func. skip. apply r_left. unfold func_sqrt.
  apply (r_tstep n w_sqrt). intros n1 L1.
  replace (tok w_lbracket [] :: c ++ tok w_rbracket [] :: tok w_lbrace [] :: c' ++ [tok w_rbrace []])
    with ((tok w_lbracket [] :: c ++ [tok w_rbracket []]) ++ tok w_lbrace [] :: c' ++ [tok w_rbrace []]) by (cbn [app]; rewrite <- app_assoc; reflexivity).
  apply (r_seq n1 _ _ _ (Some t)); [|discriminate|tam|].
  - intro ks. apply r_some. apply (r_tstep n1 w_lbracket). intros n2 L2.
    apply (r_bind n2 _ _ c t _ _ C0); [apply inner; [exact H|lia]|tam|apply after_cons; reflexivity|].
    apply (r_end n2 _ _ _ (tok w_rbracket [])); [apply (r_tok n2 w_rbracket)|apply r_ret].
  - intros n2 L2. apply (r_end n2 _ _ _ t'); [|apply r_ret]. apply r_right; [blk|]. apply braced_mono; [assumption|assumption|lia].
Qed.
End Pair.

(** Functions *)
Ltac of_kinds := intros [k0 s0 l0] rest0 kk0 Hk0; cbn [kind] in Hk0; unfold mem in Hk0; cbn in Hk0; kinds Hk0.
Definition fks := map snd fn_kinds.
Section Fn.
Local Opaque rules_upto.
Lemma fn_first rec : forall x rest k, mem (kind x) fks = true -> brackets TGroup group_pairs (r_expr rec) (x :: rest) k = NoParse.
Proof. of_kinds. Qed.
Lemma fn_first1 rec : forall x rest k, mem (kind x) fks = true -> brackets TNorm norm_pairs (r_expr rec) (x :: rest) k = NoParse.
Proof. of_kinds. Qed.
Lemma fn_first2 rec : forall x rest k, mem (kind x) fks = true -> brackets TAbs abs_pairs (r_expr rec) (x :: rest) k = NoParse.
Proof. of_kinds. Qed.
Lemma fn_first3 rec : forall x rest k, mem (kind x) fks = true -> brackets TFloor floor_pairs (r_expr rec) (x :: rest) k = NoParse.
Proof. of_kinds. Qed.
Lemma fn_first4 rec : forall x rest k, mem (kind x) fks = true -> brackets TCeil ceil_pairs (r_expr rec) (x :: rest) k = NoParse.
Proof. of_kinds. Qed.
Lemma fn_single : forall x : token, mem (kind x) fks = true -> mem (kind x) single_funcs = true.
Proof. intros [k0 s0 l0] Hk0; cbn [kind] in *; unfold mem in Hk0; cbn in Hk0; kinds Hk0. Qed.
Lemma f_fn c t x : tame c -> AE c t -> mem (kind x) fks = true ->
  B6 (x :: tok w_lparen [] :: c ++ [tok w_rparen []]) (TFunc (skipn 1 (text x)) [] None None t).
Proof.
  intros T H M n. unfold comp.
  apply r_right; [intros r k _ _ _; apply fn_first, M|]. apply r_right; [intros r k _ _ _; apply fn_first1, M|].
  apply r_right; [intros r k _ _ _; apply fn_first2, M|]. apply r_right; [intros r k _ _ _; apply fn_first3, M|].
  apply r_right; [intros r k _ _ _; apply fn_first4, M|]. apply r_left. unfold func. apply r_left. unfold func_single.
  change (x :: tok w_lparen [] :: c ++ [tok w_rparen []]) with ([x] ++ tok w_lparen [] :: c ++ [tok w_rparen []]).
  apply (r_seq n _ _ _ (skipn 1 (text x), [])); [|discriminate|tam|].
  - intro ks. apply r_left. apply (r_map n (fun t => (skipn 1 (text t), []))). apply r_one, fn_single, M.
  - intros n1 L1. apply (r_skip n1 _ _ (None, None) _ _ [K_L_PAREN]); [|tam|apply after_cons; reflexivity|].
    + apply r_left. apply (r_end n1 _ _ [] None); [apply r_none; dead_by_first|]. apply (r_end n1 _ _ [] None); [apply r_none; dead_by_first|apply r_ret].
    + cbn [fst snd sub_tree]. apply (r_skip n1 _ _ None _ _ [K_L_PAREN]); [apply r_ret|tam|apply after_cons; reflexivity|].
      apply (r_end n1 _ _ _ t); [|apply r_ret]. apply r_left. unfold in_parens. apply r_left.
      apply (r_skip n1 _ _ None _ _ [K_L_PAREN]); [apply r_none; dead_by_first|tam|apply after_cons; reflexivity|].
      apply (r_tstep n1 w_lparen). intros n2 L2. apply (r_bind n2 _ _ c t _ _ C0); [apply inner; [exact H|lia]|tam|apply after_cons; reflexivity|].
      apply (r_skip n2 _ _ None _ _ [K_R_PAREN]); [apply r_none; dead_by_first|tam|apply after_cons; reflexivity|].
      apply (r_end n2 _ _ _ (tok w_rparen [])); [apply (r_tok n2 w_rparen)|apply r_ret].
Qed.
End Fn.

(** * Symbols *)
(** if every continuation after the matching brace fails, so does the whole *)
Lemma runs_balanced n (p : P tree) c t ks : runs n p c t ks -> sound n p (taking 0 0) -> (List.length c <= n)%nat -> tame c -> balanced c.
Proof.
  intros R S L T. specialize (R [] (fun _ r => match r with [] => Found (MRel (RExpr t)) | _ => NoParse end) (MRel (RExpr t))).
  rewrite app_nil_r in R. specialize (R L tame_nil I eq_refl).
  destruct (S c (fun _ r => match r with [] => Found (MRel (RExpr t)) | _ => NoParse end) L) as [(a & c1 & r & E & Q & K)|[K _]].
  - rewrite R. discriminate.
  - rewrite R in K. destruct r; [|discriminate]. rewrite app_nil_r in E. subst. apply Q.
  - rewrite R in K. discriminate.
Qed.
Lemma AE_balanced c t : AE c t -> tame c -> balanced c.
Proof. intros H T. apply (runs_balanced (List.length c) _ c t C0 (H _)); [apply (s_expr (List.length c))|lia|exact T]. Qed.
Lemma brace_fail n c t x rest (k : K tree) : AE c t -> tame (c ++ x :: rest) -> (List.length (c ++ x :: rest) < n)%nat -> kind x = K_R_BRACE ->
  (forall a, k a rest = NoParse) -> (y <~ r_expr (X n) ;; _ <~ ptok K_R_BRACE ;; pret y) (c ++ x :: rest) k = NoParse.
Proof.
  intros H T L Kx F. destruct n as [|m]; [lia|]. unfold X. unfold pbind at 1.
  set (k1 := fun (a : tree) ts' => (_ <~ ptok K_R_BRACE;; pret a) ts' k).
  assert (B : balanced c) by (apply (AE_balanced c t H); apply Forall_app in T; apply T).
  assert (D : forall o : outcome, o = NoParse \/ o <> NoParse) by (intros []; [right|left|right]; congruence).
  destruct (D (r_expr (rules_upto (S m)) (c ++ x :: rest) k1)) as [E|E]; [exact E|].
  destruct (s_expr m (c ++ x :: rest) k1) as [(a & c1 & r & E1 & Q & E2)|[_ O]]; [lia|exact E| |destruct (tame_odd _ T O)].
  exfalso. apply E. rewrite <- E2. unfold k1, pbind, ptok, pone, pret. destruct r as [|y r]; [reflexivity|].
  cbn [mem existsb]. destruct (kind y =? K_R_BRACE) eqn:Ky; [|reflexivity]. apply N.eqb_eq in Ky. destruct Q as [Q _].
  destruct (balanced_prefix _ _ _ _ _ _ E1 B Q Kx Ky) as (_ & -> & _). cbn. apply F.
Qed.
Lemma sup_fail n n' c t l0 l1 l2 rest (k : K tree) : AE c t -> tame c -> tame rest -> (n' <= n)%nat ->
  (List.length ((tok w_caret l0 :: tok w_lbrace l1 :: c ++ [tok w_rbrace l2]) ++ rest) <= n')%nat ->
  (forall a, k a rest = NoParse) -> supexpr (X n) ((tok w_caret l0 :: tok w_lbrace l1 :: c ++ [tok w_rbrace l2]) ++ rest) k = NoParse.
Proof.
  intros H T Tr Ln L F. cbn [app List.length] in *. rewrite <- app_assoc in *. cbn [app] in *.
  unfold supexpr. unfold pbind at 1. unfold ptok at 1, pone at 1. cbn [mem existsb kind tok fst w_caret]. rewrite N.eqb_refl. cbn [orb].
  unfold palt. destruct n as [|m]; [lia|].
  replace (r_atom (X (S m)) (tok w_lbrace l1 :: c ++ tok w_rbrace l2 :: rest) k) with NoParse by reflexivity.
  apply (brace_fail (S m) c t); [exact H|tam|lia|reflexivity|exact F].
Qed.
Section Sym.
Local Opaque rules_upto.
Definition named (x : token) : option sname :=
  if kind x =? K_LETTER_NO_E then Some (NLetter (text x)) else if kind x =? K_GREEK_CMD then Some (NGreek (text x)) else None.
Lemma named_cases x n : named x = Some n ->
  (exists s l, x = Tok K_LETTER_NO_E s l /\ n = NLetter s) \/ (exists s l, x = Tok K_GREEK_CMD s l /\ n = NGreek s).
Proof.
  destruct x as [k s l]. unfold named. cbn [kind text]. destruct (N.eqb_spec k K_LETTER_NO_E); [|destruct (N.eqb_spec k K_GREEK_CMD); [|discriminate]]; intros [= <-]; subst; eauto.
Qed.
Lemma name_runs n rec x nm : named x = Some nm -> sure n (name_part rec) [x] nm.
Proof.
  intros E ks. destruct (named_cases _ _ E) as [(s & l & -> & ->)|(s & l & -> & ->)]; unfold name_part.
  - apply r_left. apply (r_map n (fun t => NLetter (text t)) _ _ (Tok K_LETTER_NO_E s l)). apply r_one. reflexivity.
  - apply r_right; [blk|]. apply r_left. apply (r_map n (fun t => NGreek (text t)) _ _ (Tok K_GREEK_CMD s l)). apply r_one. reflexivity.
Qed.
(** what cannot begin with a name *)
Ltac by_name E := destruct (named_cases _ _ E) as [(s & l & -> & ->)|(s & l & -> & ->)].
Lemma name_eq rec x nm ts k : named x = Some nm -> name_part rec (x :: ts) k = k nm ts.
Proof.
  intro E. by_name E; unfold name_part, palt, pmap, pbind, pret, ptok, pone; cbn; [destruct (k (NLetter s) ts)|destruct (k (NGreek s) ts)]; reflexivity.
Qed.
Lemma f_sym n x nm : named x = Some nm -> runs n (comp (X n) true) [x] (TSymbol nm None None) (C4 ++ JN).
Proof.
  intro E. unfold comp. do 5 (apply r_right; [by_name E; blk|]). apply r_right.
  - intros rest k _ _ S. revert rest k S.
    by_name E; (intros [|[k0 s0 l0] rest0] kk0 Hstop; [reflexivity|]; cbn [stop kind] in Hstop; unfold mem in Hstop; cbn in Hstop; kinds Hstop).
  - apply r_left. unfold atom. apply r_left. unfold atom_expr. apply (r_end n _ _ _ nm); [apply name_runs, E|].
    assert (Dsup : dead (supexpr (X n)) (C4 ++ JN)) by (apply (d_less _ (C4 ++ J)); [reflexivity|apply dead_supexpr]).
    assert (Dsub : dead (subexpr (X n)) (C4 ++ JN)) by (apply (d_less _ (C5 ++ J)); [reflexivity|apply dead_subexpr]).
    repeat (apply r_right; [intros rest k _ _ S; first [apply Dsup, S|apply Dsub, S]|]). apply r_ret.
Qed.
Lemma f_sym_pow n x nm c t : named x = Some nm -> AE c t -> tame c ->
  runs n (comp (X n) true) (x :: tok w_caret [] :: tok w_lbrace [] :: c ++ [tok w_rbrace []]) (TSymbol nm None (Some t)) (C5 ++ JN).
Proof.
  intros E H T. unfold comp. do 5 (apply r_right; [by_name E; blk|]). apply r_right.
  - intros rest k L Tr S. cbn [app List.length] in L.
    assert (Dap : dead (apply_args (X n)) (C5 ++ JN)) by dead_by_first.
    assert (Dbr : dead (ptok K_L_BRACE) (C5 ++ JN)) by dead_by_first.
    unfold func. unfold palt at 1. replace (func_single _ _ _) with NoParse by (by_name E; reflexivity).
    unfold palt at 1. replace (func_multi _ _ _) with NoParse by (by_name E; reflexivity).
    unfold palt at 1. replace (func_apply _ _ _) with NoParse; [by_name E; reflexivity|].
    assert (HD : forall (f : pystr -> P tree) , (forall s, f s (((tok w_caret [] :: tok w_lbrace [] :: c ++ [tok w_rbrace []]) ++ rest)) k = NoParse) ->
      (s <~ ptext (_ <~ name_part (X n) ;; popt (subexpr (X n))) ;; f s) ((x :: tok w_caret [] :: tok w_lbrace [] :: c ++ [tok w_rbrace []]) ++ rest) k = NoParse).
    { intros f Hf. unfold pbind at 1, ptext, pmap, pspan, pbind at 1, pbind at 1. cbn [app].
      rewrite (name_eq _ _ _ _ _ E). unfold popt, palt, pmap, pbind, pret.
      replace (subexpr _ _ _) with NoParse by reflexivity. apply Hf. }
    unfold func_apply, palt at 1. symmetry. rewrite HD.
    + apply HD. intro s. unfold pbind at 1, popt, pmap, pret, palt at 1. unfold pbind at 1. rewrite (sup_fail n n c t); [reflexivity|assumption|assumption|assumption|lia|cbn [app List.length]; lia|].
      intro a. unfold pbind at 1. unfold pbind at 1. apply Dbr, S.
    + intro s. unfold pbind at 1, popt, pmap, pret, palt at 1. unfold pbind at 1. rewrite (sup_fail n n c t); [reflexivity|assumption|assumption|assumption|lia|cbn [app List.length]; lia|].
      intro a. unfold pbind. apply Dap, S.
  - apply r_left. unfold atom. apply r_left. unfold atom_expr.
    change (x :: tok w_caret [] :: tok w_lbrace [] :: c ++ [tok w_rbrace []]) with ([x] ++ tok w_caret [] :: tok w_lbrace [] :: c ++ [tok w_rbrace []]).
    apply (r_seq n _ _ _ nm); [apply name_runs, E|discriminate|tam|]. intros n1 L1.
    assert (Dsub : dead (subexpr (X n)) (C5 ++ JN)) by (apply (d_less _ (C5 ++ J)); [reflexivity|apply dead_subexpr]).
    apply r_right; [|apply r_right; [blk|apply r_right; [blk|]]].
    + intros rest k L Tr S. unfold pbind at 1. apply (sup_fail n n1 c t); [assumption|assumption|assumption|lia|exact L|].
      intro a. unfold pbind. apply Dsub, S.
    + apply r_left. apply (r_end n1 _ _ _ t); [apply f_sup; [assumption|assumption|lia]|apply r_ret].
Qed.
Lemma f_pi ld : B6 [tok w_pi ld] (TConst (u "\pi")).
Proof.
  intro n. unfold comp. skip. apply r_left. unfold atom. skip. apply r_left.
  apply (r_map n (fun t => TConst (text t)) _ _ (tok w_pi ld)). apply (r_tok n w_pi).
Qed.
End Sym.

(** * Numbers *)
Section Numbers.
Local Opaque rules_upto.
Definition consumes {A} (F : token -> Prop) (p : P A) : Prop := forall ts k, p ts k <> NoParse -> exists a c r, ts = c ++ r /\ Forall F c /\ k a r = p ts k.
Lemma co_ret {A} F (a : A) : consumes F (pret a).
Proof. intros ts k H. exists a, [], ts. repeat split. constructor. Qed.
Lemma co_one (F : token -> Prop) ks : (forall t, mem (kind t) ks = true -> F t) -> consumes F (pone ks).
Proof.
  intros H [|t ts] k N; cbn in *; [congruence|]. destruct (mem (kind t) ks) eqn:E; [|congruence].
  exists t, [t], ts. repeat split. constructor; [apply H, E|constructor].
Qed.
Lemma co_bind {A B} F (p : P A) (f : A -> P B) : consumes F p -> (forall a, consumes F (f a)) -> consumes F (pbind p f).
Proof.
  intros Hp Hf ts k N. unfold pbind in *. destruct (Hp ts _ N) as (a & c & r & -> & Fc & E).
  rewrite <- E in N. destruct (Hf a r k N) as (b & c' & r' & -> & Fc' & E').
  exists b, (c ++ c'), r'. split; [apply app_assoc|]. split; [apply Forall_app; auto|]. congruence.
Qed.
Lemma co_alt {A} F (p q : P A) : consumes F p -> consumes F q -> consumes F (p <|> q).
Proof.
  intros Hp Hq ts k N. unfold palt in *. specialize (Hp ts k). specialize (Hq ts k). destruct (p ts k) eqn:E; [|apply Hq; exact N|]; apply Hp; discriminate.
Qed.
Lemma co_map {A B} F (f : A -> B) p : consumes F p -> consumes F (pmap f p).
Proof. intro H. apply co_bind; [exact H|intro; apply co_ret]. Qed.
Lemma co_opt {A} F (p : P A) : consumes F p -> consumes F (popt p).
Proof. intro H. apply co_alt; [apply co_map, H|apply co_ret]. Qed.
Lemma co_many {A} F (p : P A) : consumes F p -> consumes F (pmany p).
Proof.
  intros H ts. unfold pmany. generalize (List.length ts). intro i. revert ts. change (consumes F (pmany_n i p)).
  induction i as [|i IH]; cbn [pmany_n]; [apply co_ret|]. apply co_alt; [|apply co_ret]. apply co_bind; [exact H|intro]. apply co_bind; [exact IH|intro; apply co_ret].
Qed.
Definition NK : list N := [K_DIGIT; K_COMMA; K_PERIOD].
Definition numeric (t : token) : Prop := mem (kind t) NK = true.
Lemma co_number : consumes numeric p_number_toks.
Proof.
  unfold p_number_toks, pplus, pdigit, ptok.
  repeat lazymatch goal with
  | |- consumes _ (palt _ _) => apply co_alt
  | |- consumes _ (pret _) => apply co_ret
  | |- consumes _ (pmany _) => apply co_many
  | |- consumes _ (popt _) => apply co_opt
  | |- consumes _ (pbind _ _) => apply co_bind; [|intro]
  | |- consumes _ (pone _) => apply co_one; intros [k0 s0 l0] Hk0; unfold numeric; cbn [kind] in *; unfold mem in Hk0; cbn in Hk0; kinds Hk0
  end.
Qed.
Lemma number_end c1 r c rest : c1 ++ r = c ++ rest -> Forall numeric c1 -> Forall numeric c -> forall ks, stop ks rest -> forallb (fun k => negb (mem k NK)) ks = true -> stop (ks ++ NK) r.
Proof.
  intros E F1 F ks S D. assert (M : forall k, mem k (ks ++ NK) = mem k ks || mem k NK) by (intro; apply existsb_app).
  destruct r as [|t r]; [exact I|]. cbn [stop]. rewrite M. apply orb_true_iff.
  revert c E F. induction c1 as [|y c1 IH]; intros [|z c] E F; cbn [app] in E.
  - subst rest. left. exact S.
  - injection E as -> E. inversion F; subst. right. assumption.
  - subst rest. cbn in S. inversion F1; subst. unfold mem at 1 in S. apply existsb_exists in S. destruct S as (x & Hx & Ex). apply N.eqb_eq in Ex.
    rewrite forallb_forall in D. specialize (D x Hx). rewrite <- Ex in D. unfold numeric in H1. rewrite H1 in D. discriminate.
  - injection E as -> E. inversion F1; subst. inversion F; subst. apply (IH ltac:(assumption) c E). assumption.
Qed.
Lemma number_fail (k : K unit) c rest ks : Forall numeric c -> stop ks rest -> forallb (fun k => negb (mem k NK)) ks = true ->
  (forall r, stop (ks ++ NK) r -> k tt r = NoParse) -> p_number_toks (c ++ rest) k = NoParse.
Proof.
  intros F S D Hk. assert (Dn : forall o : outcome, o = NoParse \/ o <> NoParse) by (intros []; [right|left|right]; congruence).
  destruct (Dn (p_number_toks (c ++ rest) k)) as [E|E]; [exact E|].
  destruct (co_number _ _ E) as ([] & c1 & r & E1 & F1 & E2). rewrite <- E2. apply Hk. apply (number_end _ _ _ _ (eq_sym E1) F1 F _ S D).
Qed.
Lemma b_enotation n c ks : Forall numeric c -> forallb (fun k => negb (mem k NK)) ks = true -> mem K_E_NOTATION_E ks = false -> blocked n p_e_notation c ks.
Proof.
  intros F D M rest k _ _ S. unfold p_e_notation, pmap, ptext, pspan, pmap, pbind. apply (number_fail _ c rest ks F S D).
  intros [|[k0 s l] r] Hr; [reflexivity|]. unfold ptok, pone. cbn [stop kind] in *. destruct (mem k0 [K_E_NOTATION_E]) eqn:E; [|reflexivity].
  cbn in E. rewrite orb_false_r in E. apply N.eqb_eq in E. subst. unfold mem in Hr, M. rewrite existsb_app, M in Hr. discriminate.
Qed.
Lemma b_percent n c ks : Forall numeric c -> forallb (fun k => negb (mem k NK)) ks = true -> mem K_PERCENT_SIGN ks = false -> blocked n p_percent c ks.
Proof.
  intros F D M rest k _ _ S. unfold p_percent, pmap, ptext, pspan, pmap, pbind. apply (number_fail _ c rest ks F S D).
  intros [|[k0 s l] r] Hr; [reflexivity|]. unfold ptok, pone. cbn [stop kind] in *. destruct (mem k0 [K_PERCENT_SIGN]) eqn:E; [|reflexivity].
  cbn in E. rewrite orb_false_r in E. apply N.eqb_eq in E. subst. unfold mem in Hr, M. rewrite existsb_app, M in Hr. discriminate.
Qed.
(** runs of digits *)
Lemma many_digits n ds ks : mem K_DIGIT ks = false -> many_runs n pdigit (map (fun c => tok (w_digit c) []) ds) (map (fun c => tok (w_digit c) []) ds) ks.
Proof.
  intro M. induction ds as [|c ds IH]; cbn [map].
  - apply many_nil. intros [|[k0 s l] r] k Hr; [reflexivity|]. unfold pdigit, ptok, pone. cbn [stop kind] in *.
    destruct (mem k0 [K_DIGIT]) eqn:E; [|reflexivity]. cbn in E. rewrite orb_false_r in E. apply N.eqb_eq in E. subst. congruence.
  - change (tok (w_digit c) [] :: map (fun c => tok (w_digit c) []) ds) with ([tok (w_digit c) []] ++ map (fun c => tok (w_digit c) []) ds) at 1.
    apply (many_cons n _ _ _ _ _ (K_DIGIT :: ks)); [discriminate|apply r_one; reflexivity| | |exact IH].
    + clear. induction ds as [|c ds IH]; cbn [map]; tam.
    + destruct ds as [|c' ds]; cbn [map]; [|apply after_cons; reflexivity]. apply stop_sub, forallb_forall. intros x Hx. cbn. rewrite (proj2 (existsb_exists _ _)); [apply orb_true_r|]. exists x. split; [exact Hx|apply N.eqb_refl].
Qed.
Lemma tame_digits ld ds : tame (digits ld ds).
Proof. destruct ds as [|c r]; cbn [digits]; tam. induction r as [|c' r IH]; cbn [map]; tam. Qed.
Lemma plus_digits n ld ds ks : ds <> [] -> mem K_DIGIT ks = false -> runs n (pplus pdigit) (digits ld ds) (digits ld ds) ks.
Proof.
  destruct ds as [|c r]; [congruence|]. intros _ M. cbn [digits]. unfold pplus.
  change (tok (w_digit c) ld :: map (fun c => tok (w_digit c) []) r) with ([tok (w_digit c) ld] ++ map (fun c => tok (w_digit c) []) r) at 1.
  apply (r_seq n _ _ _ (tok (w_digit c) ld)); [intro; apply r_one; reflexivity|discriminate| |].
  - induction r as [|c' r IH]; cbn [map]; tam.
  - intros n1 L1. apply (r_end n1 _ _ _ (map (fun c => tok (w_digit c) []) r)); [apply r_many, many_digits, M|apply r_ret].
Qed.
Lemma dead_tok k ks : mem k ks = false -> dead (ptok k) ks.
Proof.
  intros M [|[k0 s l] r] kk Hr; [reflexivity|]. unfold ptok, pone. cbn [stop kind] in *. destruct (mem k0 [k]) eqn:E; [|reflexivity].
  cbn in E. rewrite orb_false_r in E. apply N.eqb_eq in E. subst. congruence.
Qed.
Lemma r_int n ld ds ks : ds <> [] -> forallb (fun k => negb (mem k NK)) ks = true -> runs n p_number_toks (digits ld ds) tt ks.
Proof.
  intros N D. assert (M : forall k, mem k NK = true -> mem k ks = false).
  { intros k Hk. destruct (mem k ks) eqn:E; [|reflexivity]. unfold mem in E. apply existsb_exists in E. destruct E as (x & Hx & Ex). apply N.eqb_eq in Ex. subst.
    rewrite forallb_forall in D. specialize (D x Hx). rewrite Hk in D. discriminate. }
  unfold p_number_toks. apply r_left. apply (r_end n _ _ _ (digits ld ds)); [apply plus_digits; [exact N|apply M; reflexivity]|].
  apply (r_end n _ _ [] []); [apply r_many, many_nil; intros rest k S; apply (dead_tok K_COMMA ks); [apply M; reflexivity|exact S]|].
  apply (r_end n _ _ [] None); [apply r_none; intros rest k S; apply (dead_tok K_PERIOD ks); [apply M; reflexivity|exact S]|apply r_ret].
Qed.
Lemma r_dec n ld ds fs ks : ds <> [] -> fs <> [] -> forallb (fun k => negb (mem k NK)) ks = true ->
  runs n p_number_toks (digits ld ds ++ tok w_period [] :: digits [] fs) tt ks.
Proof.
  intros N N' D. assert (M : forall k, mem k NK = true -> mem k ks = false).
  { intros k Hk. destruct (mem k ks) eqn:E; [|reflexivity]. unfold mem in E. apply existsb_exists in E. destruct E as (x & Hx & Ex). apply N.eqb_eq in Ex. subst.
    rewrite forallb_forall in D. specialize (D x Hx). rewrite Hk in D. discriminate. }
  assert (T : tame (tok w_period [] :: digits [] fs)) by (apply tame_cons; [reflexivity|apply tame_digits]).
  unfold p_number_toks. apply r_left. apply (r_bind n _ _ _ (digits ld ds) _ _ [K_PERIOD]); [apply plus_digits; [exact N|reflexivity]|exact T|apply after_cons; reflexivity|].
  apply (r_skip n _ _ [] _ _ [K_PERIOD]); [apply r_many, many_nil; intros rest k S; apply (dead_tok K_COMMA [K_PERIOD]); [reflexivity|exact S]|exact T|apply after_cons; reflexivity|].
  apply (r_end n _ _ _ (Some (digits [] fs))); [|apply r_ret]. apply r_some. apply (r_tstep n w_period). intros n1 L1. apply plus_digits; [exact N'|apply M; reflexivity].
Qed.
(** a number as a whole; it begins with a digit *)
Lemma f_number n c d ld r : c = tok (w_digit d) ld :: r -> Forall numeric c ->
  (forall ks, forallb (fun k => negb (mem k NK)) ks = true -> runs n p_number_toks c tt ks) ->
  runs n (comp (X n) true) c (TNumber (get_text c)) (C5 ++ J).
Proof.
  intros E F R. unfold comp. do 6 (apply r_right; [rewrite E; blk|]). apply r_left. unfold atom.
  do 2 (apply r_right; [rewrite E; blk|]). apply r_right; [apply b_enotation; [exact F|reflexivity|reflexivity]|].
  apply r_right; [apply b_percent; [exact F|reflexivity|reflexivity]|]. apply r_left.
  unfold p_number. apply r_map. apply (r_text n _ _ tt). apply R. reflexivity.
Qed.
Lemma f_percent n c d ld r : c = tok (w_digit d) ld :: r -> Forall numeric c ->
  (forall ks, forallb (fun k => negb (mem k NK)) ks = true -> runs n p_number_toks c tt ks) ->
  runs n (comp (X n) true) (c ++ [tok w_percent []]) (TPercent (get_text (c ++ [tok w_percent []]))) (C5 ++ J).
Proof.
  intros E F R. unfold comp. do 6 (apply r_right; [rewrite E; blk|]). apply r_left. unfold atom.
  do 2 (apply r_right; [rewrite E; blk|]). apply r_right.
  - intros rest k L Tr S. rewrite <- app_assoc. cbn [app]. apply (b_enotation (List.length (c ++ tok w_percent [] :: rest)) c [K_PERCENT_SIGN] F); [reflexivity|reflexivity|lia|tam|reflexivity].
  - apply r_left. unfold p_percent. apply r_map. apply (r_text n _ _ (tok w_percent [])).
    apply (r_bind n _ _ _ tt _ _ [K_PERCENT_SIGN]); [apply R; reflexivity|tam|apply after_cons; reflexivity|]. apply (r_tok n w_percent).
Qed.
Lemma numeric_digits ld ds : Forall numeric (digits ld ds).
Proof. destruct ds as [|c r]; cbn [digits]; constructor; [reflexivity|]. induction r; cbn [map]; constructor; [reflexivity|assumption]. Qed.
Lemma text_digits ld ds : get_text (digits ld ds) = ds.
Proof. destruct ds as [|c r]; [reflexivity|]. cbn. f_equal. induction r as [|d r IH]; [reflexivity|]. cbn. f_equal. exact IH. Qed.
Lemma f_num n ld ds : ds <> [] -> runs n (comp (X n) true) (digits ld ds) (TNumber ds) (C5 ++ J).
Proof.
  intro N. rewrite <- (text_digits ld ds) at 2. destruct ds as [|c r]; [congruence|].
  apply (f_number n _ c ld (map (fun c => tok (w_digit c) []) r)); [reflexivity|apply numeric_digits|intros; apply r_int; assumption].
Qed.
Lemma f_pct n ld ds : ds <> [] -> runs n (comp (X n) true) (digits ld ds ++ [tok w_percent []]) (TPercent (ds ++ u "\%")) (C5 ++ J).
Proof.
  intro N. replace (ds ++ u "\%") with (get_text (digits ld ds ++ [tok w_percent []])) by (unfold get_text; rewrite flat_map_app; fold (get_text (digits ld ds)); rewrite text_digits; reflexivity).
  destruct ds as [|c r]; [congruence|].
  apply (f_percent n _ c ld (map (fun c => tok (w_digit c) []) r)); [reflexivity|apply numeric_digits|intros; apply r_int; assumption].
Qed.
Lemma f_dec n ld ds fs : ds <> [] -> fs <> [] -> runs n (comp (X n) true) (digits ld ds ++ tok w_period [] :: digits [] fs) (TNumber (ds ++ u "." ++ fs)) (C5 ++ J).
Proof.
  intros N N'. replace (ds ++ u "." ++ fs) with (get_text (digits ld ds ++ tok w_period [] :: digits [] fs)).
  2:{ unfold get_text. rewrite flat_map_app. fold (get_text (digits ld ds)). rewrite text_digits. cbn [flat_map]. fold (get_text (digits [] fs)). rewrite text_digits. reflexivity. }
  destruct ds as [|c r]; [congruence|].
  apply (f_number n _ c ld (map (fun c => tok (w_digit c) []) r ++ tok w_period [] :: digits [] fs)); [reflexivity| |intros; apply r_dec; assumption].
  apply Forall_app. split; [apply numeric_digits|]. constructor; [reflexivity|apply numeric_digits].
Qed.
End Numbers.

(** * All of arithmetic *)
Section Main.
Variable gap : pystr.
Hypothesis Hgap : gap = [] \/ gap = [32].
Local Notation toks := (ArithLex.toks gap).
Local Notation at_level := (ArithLex.at_level gap).
Local Notation factor_toks := (ArithLex.factor_toks gap).
Local Notation op_lead := (ArithLex.op_lead gap).
Context {A : Type}.
Variable KA : arithmetic A.
Variable V : Type.
Variable den : V -> A.
Variable rho : pystr -> A.
Variable values : list (pystr * pv V).
Variable hash : pystr -> pystr.
Notation reads := (Reads KA V den rho values hash).
Notation reads_all := (ReadsAll KA V den rho values hash).
Definition at_lvl (j : list N) (l : nat) (c : list token) (a : A) : Prop :=
  match l with
  | 0%nat => exists t, reads t a /\ A0 c t
  | 1%nat => exists t, reads t a /\ A1 c t
  | 2%nat => exists t, reads t a /\ A2 c t
  | 3%nat => exists ts, reads_all ts a /\ A3 c ts
  | 4%nat => exists t, reads t a /\ B4 j c t
  | 5%nat => exists t, reads t a /\ B5 j c t
  | _ => exists t, reads t a /\ B6 c t
  end.
(** A symbol takes the power that follows, so it is not read at level 6 *)
Definition prec' (e : arith) : nat := match e with Sym _ => 5 | _ => prec e end.
Definition lowered (j : list N) (l : nat) (c : list token) (a : A) : Prop := forall l', (l' <= l)%nat -> at_lvl j l' c a.
(** what may come next, if it is a factor *)
Definition next_kinds (e : arith) : list N := if ends_name e then JN else J.
Lemma next_cases e : next_kinds e = J \/ next_kinds e = JN.
Proof. unfold next_kinds. destruct (ends_name e); auto. Qed.
Lemma lower j l c a : j = J \/ j = JN -> (l <= 6)%nat -> tame c -> ((3 <= l)%nat -> unsigned c) -> at_lvl j l c a -> lowered j l c a.
Proof.
  intros Hj L6 T Un. induction l as [|l IH]; intros H l' L.
  - replace l' with 0%nat by lia. exact H.
  - destruct (Nat.eq_dec l' (S l)) as [->|Ne]; [exact H|]. apply IH; [lia|intro; apply Un; lia| |lia]. clear IH L Ne.
    destruct l as [|[|[|[|[|[|l]]]]]]; [| | | | | |lia].
    + destruct H as (t & R & Ht). exists t. split; [exact R|apply lift0, Ht].
    + destruct H as (t & R & Ht). exists t. split; [exact R|apply lift1, Ht].
    + destruct H as (ts & R & Ht). exists (TJuxt ts). split; [apply R_juxt, R|apply lift2; [exact Ht|apply Un; lia|exact T]].
    + destruct H as (t & R & Ht). exists [t]. split; [apply R_one, R|apply lift3, (B4_A4 j), Ht].
    + destruct H as (t & R & Ht). exists t. split; [exact R|apply lift4j, Ht].
    + destruct H as (t & R & Ht). exists t. split; [exact R|apply lift5j; [exact Hj|exact Ht]].
Qed.
Lemma lower6 j c a : j = J \/ j = JN -> tame c -> unsigned c -> at_lvl j 6 c a -> lowered j 6 c a.
Proof. intros Hj T Un. apply lower; [exact Hj|lia|exact T|intros _; exact Un]. Qed.
Lemma paren_lvl j c a ld : j = J \/ j = JN -> tame c -> at_lvl j 0 c a -> lowered j 6 (paren_toks ld c) a.
Proof.
  intros Hj T (t & R & H). apply lower6; [exact Hj|unfold paren_toks; tam|eexists _, _; split; [reflexivity|reflexivity]|].
  exists (TGroup t). split; [apply R_group, R|]. apply f_paren; [exact T|apply close0, H].
Qed.
Lemma alphabet_tame : Forall (fun w => negb (mem (fst w) [K_UNDERSCORE; K_MATRIX_XRIGHTARROW]) = true) alphabet.
Proof. apply Forall_forall. apply forallb_forall. vm_compute. reflexivity. Qed.
Lemma lettered_tame c : Forall lettered c -> tame c.
Proof.
  intro F. induction F as [|x c [H _] F IH]; [constructor|]. apply tame_cons; [|exact IH].
  pose proof alphabet_tame as T. rewrite Forall_forall in T. apply (T _ H).
Qed.
Definition not_diff (w : word) : bool := negb (fst w =? K_DIFFERENTIAL) && negb ((fst w =? K_SYMBOL) && str_eqb (snd w) (u "\partial")).
Lemma alphabet_not_diff : forallb not_diff alphabet = true.
Proof. vm_compute. reflexivity. Qed.
Lemma lettered_lower c : Forall lettered c -> lower_info c = DNone.
Proof.
  intro F. apply lower_none. intros x Hx. rewrite Forall_forall in F. destruct (F x Hx) as [H _].
  pose proof alphabet_not_diff as T. rewrite forallb_forall in T. specialize (T _ H). unfold not_diff in T. cbn [fst snd] in T. apply andb_true_iff in T.
  destruct T as [T1 T2]. apply negb_true_iff in T1, T2. apply N.eqb_neq in T1. split; assumption.
Qed.
Definition ok_lead (ld : pystr) : Prop := ld = [] \/ ld = [32].
Lemma tame_toks e ld : wf e -> ok_lead ld -> tame (toks e ld).
Proof. intros W L. apply lettered_tame, lettered_toks; assumption. Qed.
(** an operand has no sign in front *)
Lemma starters_unsigned : forallb (fun w => mem (fst w) U || (fst w =? K_SUB)) starters = true.
Proof. vm_compute. reflexivity. Qed.
Lemma paren_unsigned ld c : unsigned (paren_toks ld c).
Proof. eexists _, _. split; reflexivity. Qed.
Lemma unsigned_app c d : unsigned c -> unsigned (c ++ d).
Proof. intros (t & r & -> & H). exists t, (r ++ d). auto. Qed.
Lemma unsigned_digits ld ds : ds <> [] -> unsigned (digits ld ds).
Proof. destruct ds as [|c r]; [congruence|]. intros _. eexists _, _. split; reflexivity. Qed.
Definition sym_unsigned (x : pystr) : bool := mem (fst (w_sym x)) U.
Lemma symbols_unsigned : forallb sym_unsigned symbols = true.
Proof. vm_compute. reflexivity. Qed.
Definition fn_fine (f : pystr) : bool := mem (fst (w_fn f)) fks.
Lemma functions_fine : forallb fn_fine functions = true.
Proof. vm_compute. reflexivity. Qed.
Lemma fks_U : forallb (fun k => mem k U) fks = true.
Proof. reflexivity. Qed.
Lemma left_cases a b ld : wf a -> left_toks gap a b ld = paren_toks ld (toks a []) \/ left_toks gap a b ld = toks a ld /\ (4 <= prec a)%nat /\ ArithLex.clash gap a b = false.
Proof.
  intro W. unfold left_toks. destruct (ArithLex.clash gap a b); [left; reflexivity|]. unfold ArithLex.at_level. destruct (Nat.leb_spec 4 (prec a)); [right; auto|left; reflexivity].
Qed.
Lemma unsigned_toks e ld : wf e -> (3 <= prec e)%nat -> unsigned (toks e ld).
Proof.
  revert ld. induction e; intros ld W L; cbn [ArithLex.toks wf prec] in *; try (eexists _, _; split; reflexivity).
  - apply unsigned_digits, W.
  - apply unsigned_app, unsigned_digits, W.
  - apply unsigned_app, unsigned_digits, W.
  - eexists _, _. split; [reflexivity|]. pose proof symbols_unsigned as T. rewrite forallb_forall in T. apply (T x W).
  - destruct o; lia.
  - lia.
  - apply unsigned_app, unsigned_digits, W.
  - apply unsigned_app. destruct (Nat.leb 4 (prec e)) eqn:El; [apply IHe; [exact W|apply Nat.leb_le in El; lia]|apply paren_unsigned].
  - apply unsigned_app. destruct (Nat.leb 6 (prec e1)) eqn:El; [apply IHe1; [apply W|apply Nat.leb_le in El; lia]|apply paren_unsigned].
  - eexists _, _. split; [reflexivity|]. pose proof functions_fine as T. rewrite forallb_forall in T. specialize (T f (proj1 W)). unfold fn_fine in T.
    pose proof fks_U as T'. rewrite forallb_forall in T'. unfold mem at 1 in T. apply existsb_exists in T. destruct T as (k & Hk & E). apply N.eqb_eq in E.
    cbn [tok kind]. rewrite E. apply T', Hk.
  - apply unsigned_app. destruct (_ || _ || _); [apply paren_unsigned|]. destruct (Nat.leb_spec 4 (prec e1)); [apply IHe1; [apply W|lia]|apply paren_unsigned].
Qed.
Lemma sym_named x ld : In x symbols -> exists nm, named (tok (w_sym x) ld) = Some nm /\ names nm None (sym_name x).
Proof.
  intro H. unfold symbols in H. apply in_app_or in H. destruct H as [H|H].
  - apply in_map_iff in H. destruct H as (c & <- & H). exists (NLetter [c]).
    assert (Hc : c <> 92 /\ c <> 73).
    { assert (T : forallb (fun c => negb (c =? 92) && negb (c =? 73)) letters = true) by (vm_compute; reflexivity).
      rewrite forallb_forall in T. specialize (T c H). apply andb_true_iff in T. destruct T as [T1 T2]. apply negb_true_iff in T1, T2. apply N.eqb_neq in T1, T2. auto. }
    assert (Ew : w_sym [c] = w_letter c /\ sym_name [c] = [c]).
    { unfold w_sym, sym_name, w_letter. destruct Hc as [Hc _]. destruct c as [|p]; [split; reflexivity|].
      do 7 (try (destruct p as [p|p|]; try (split; reflexivity))); congruence. }
    destruct Ew as [-> ->]. split; [reflexivity|]. apply nm_plain, ba_letter. unfold u. cbn. intros [= E]. apply (proj2 Hc), E.
  - exists (NGreek x). unfold greeks in H. cbn [map In] in H.
    repeat (destruct H as [<-|H]; [split; [reflexivity|apply nm_plain; refine (ba_greek _)]|]). destruct H.
Qed.
Lemma fn_reads f a t : In f functions -> reads t a -> reads (TFunc f [] None None t) (fn_value KA f a).
Proof.
  intros H R. unfold functions in H. apply in_app_or in H. destruct H as [H|H]; [|apply in_app_or in H; destruct H as [H|H]].
  - replace (fn_value KA f a) with (fn KA f [a]); [apply R_trig; assumption|].
    cbn [trig_names map In] in H. repeat (destruct H as [<-|H]; [reflexivity|]). destruct H.
  - assert (T : Forall (fun p => fn_value KA (fst p) a = fn KA (snd p) [a]) arc_names) by (repeat (constructor; [reflexivity|]); constructor).
    rewrite Forall_forall in T. apply in_map_iff in H. destruct H as ([f' g] & <- & H). rewrite (T _ H). apply R_arc; assumption.
  - cbn [map In] in H. destruct H as [<-|[<-|[<-|[]]]]; [exact (R_log KA V den rho values hash t a R)|exact (R_ln KA V den rho values hash t a R)|exact (R_exp KA V den rho values hash t a R)].
Qed.
Lemma no_commas_digits s : Forall ascii_digit s -> no_commas s = s.
Proof. intro F. induction F as [|c s H F IH]; [reflexivity|]. cbn. unfold ascii_digit in H. destruct (N.eqb_spec c 44); [lia|]. cbn. f_equal. exact IH. Qed.
Lemma no_commas_app a b : no_commas (a ++ b) = no_commas a ++ no_commas b.
Proof. apply filter_app. Qed.
Lemma reads_num ds : numeral ds -> reads (TNumber ds) (int_value KA ds).
Proof. intros [F N]. unfold int_value. apply R_number. rewrite no_commas_digits by exact F. apply dec_int; assumption. Qed.

Lemma main e : forall ld, wf e -> ok_lead ld -> lowered (next_kinds e) (prec' e) (toks e ld) (value KA rho e).
Proof.
  assert (AT : forall e ld l, (forall ld, wf e -> ok_lead ld -> lowered (next_kinds e) (prec' e) (toks e ld) (value KA rho e)) ->
    wf e -> ok_lead ld -> (l <= 6)%nat -> (forall x, e = Sym x -> (l <= 5)%nat) -> at_lvl (next_kinds e) l (at_level l e ld) (value KA rho e)).
  { intros e0 ld l IH W L Ll NS. unfold at_level. destruct (Nat.leb l (prec e0)) eqn:El.
    - apply Nat.leb_le in El. apply IH; [exact W|exact L|]. destruct e0; cbn [prec' prec] in *; try lia. apply (NS x eq_refl).
    - apply (paren_lvl (next_kinds e0) _ _ ld); [apply next_cases|apply tame_toks; [exact W|left; reflexivity]|apply IH; [exact W|left; reflexivity|lia]|lia]. }
  assert (EX : forall e ld, (forall ld, wf e -> ok_lead ld -> lowered (next_kinds e) (prec' e) (toks e ld) (value KA rho e)) -> wf e -> ok_lead ld ->
    exists t, reads t (value KA rho e) /\ AE (toks e ld) t).
  { intros e0 ld IH W L. destruct (IH ld W L 0%nat ltac:(lia)) as (t & R & H). exists t. split; [exact R|apply close0, H]. }
  assert (L0 : ok_lead []) by (left; reflexivity). assert (L1 : ok_lead gap) by exact Hgap.
  assert (AL : forall l e ld, wf e -> ok_lead ld -> tame (at_level l e ld)).
  { intros l e0 ld W L. unfold at_level. destruct (Nat.leb l (prec e0)); [apply tame_toks; assumption|unfold paren_toks; tam; apply tame_toks; auto]. }
  assert (UN : forall l e ld, wf e -> (3 <= l)%nat -> unsigned (at_level l e ld)).
  { intros l e0 ld W L. unfold at_level. destruct (Nat.leb l (prec e0)) eqn:El; [apply Nat.leb_le in El; apply unsigned_toks; [assumption|lia]|apply paren_unsigned]. }
  induction e; intros ld W L;
    match goal with |- lowered _ (prec' ?e) _ _ => assert (TT : tame (toks e ld)) by (apply tame_toks; assumption);
      assert (UU : (3 <= prec e)%nat -> unsigned (toks e ld)) by (intro; apply unsigned_toks; assumption) end.
  - (* Num *) apply lower6; [apply next_cases|exact TT|apply UU; cbn; lia|]. exists (TNumber ds). split; [apply reads_num, W|]. intro n. apply f_num, W.
  - (* Dec *) apply lower6; [apply next_cases|exact TT|apply UU; cbn; lia|]. destruct W as [[F N] [F' N']]. exists (TNumber (ds ++ u "." ++ fs)). split.
    + cbn [value]. unfold dec_fraction. apply R_number. rewrite !no_commas_app, (no_commas_digits ds F), (no_commas_digits fs F'). apply dec_frac; assumption.
    + intro n. apply f_dec; assumption.
  - (* Pct *) apply lower6; [apply next_cases|exact TT|apply UU; cbn; lia|]. destruct W as [F N]. exists (TPercent (ds ++ u "\%")). split.
    + cbn [value]. unfold int_value. apply R_percent. rewrite no_commas_digits by exact F. apply dec_int; assumption.
    + intro n. apply f_pct, N.
  - (* Sym *) apply lower; [apply next_cases|cbn; lia|exact TT|intros _; apply UU; cbn; lia|]. destruct (sym_named x ld W) as (nm & En & Nm). exists (TSymbol nm None None). split; [cbn [value]; apply R_symbol, Nm|].
    intro n. apply (lift5_gen n _ _ (C4 ++ JN)); [reflexivity|reflexivity|]. apply f_sym, En.
  - (* Pi *) apply lower6; [apply next_cases|exact TT|apply UU; cbn; lia|]. exists (TConst (u "\pi")). split; [apply R_pi|apply f_pi].
  - (* Bin *) destruct W as [W1 W2].
    assert (SY : forall e : arith, forall x, e = Sym x -> (op_prec o <= 5)%nat) by (intros; destruct o; cbn; lia).
    assert (SY' : forall e : arith, forall x, e = Sym x -> (S (op_prec o) <= 5)%nat) by (intros; destruct o; cbn; lia).
    pose proof (AT e1 ld (op_prec o) IHe1 W1 L ltac:(destruct o; cbn; lia) (SY e1)) as Ha.
    pose proof (AT e2 (op_lead o) (S (op_prec o)) IHe2 W2 ltac:(destruct o; cbn; auto) ltac:(destruct o; cbn; lia) (SY' e2)) as Hb.
    pose proof (AL (S (op_prec o)) e2 (op_lead o) W2 ltac:(destruct o; cbn; auto)) as Tb.
    change (toks (Bin o e1 e2) ld) with (at_level (op_prec o) e1 ld ++ tok (w_op o) [] :: at_level (S (op_prec o)) e2 (op_lead o)) in *.
    apply lower; [apply next_cases|destruct o; cbn; lia|exact TT|exact UU|].
    destruct o; cbn [op_prec at_lvl prec' prec w_op ArithLex.op_lead] in *; destruct Ha as (ta & Ra & Ha); destruct Hb as (tb & Rb & Hb);
      match goal with
      | |- exists t, _ /\ A0 _ _ => eexists; split; [|intro n; apply (open_more _ _ _ _ n _ ta _ _ tb); [apply Ha|apply close1, Hb|tam|reflexivity|reflexivity]]
      | |- exists t, _ /\ A1 _ _ => eexists; split; [|intro n; apply (open_more _ _ _ _ n _ ta _ _ tb); [apply Ha|apply Hb|tam|reflexivity|reflexivity]]
      end.
    + apply R_add; assumption.
    + apply R_sub; assumption.
    + apply R_times; assumption.
    + apply R_times; assumption.
    + apply R_times; assumption.
    + apply R_divide; assumption.
    + apply R_divide; assumption.
    + apply R_divide; assumption.
    + apply R_mod; assumption.
  - (* Neg *) pose proof (AT e [] 3%nat IHe W L0 ltac:(lia) ltac:(intros; lia)) as (ts & R & H).
    apply lower; [apply next_cases|cbn; lia|exact TT|exact UU|]. exists (TMinus (TJuxt ts)). split; [apply R_minus, R_juxt, R|].
    apply neg2; [exact H|apply UN; [exact W|lia]|apply AL; assumption].
  - (* Scale *) destruct W as [Wd W]. apply lower; [apply next_cases|cbn; lia|exact TT|intros _; apply UU; cbn; lia|].
    assert (Hf : at_lvl (next_kinds e) 4 (factor_toks e) (value KA rho e) /\ tame (factor_toks e) /\ unsigned (factor_toks e) /\ first_is K_DIGIT (factor_toks e) = false).
    { unfold factor_toks. destruct (first_is K_DIGIT (at_level 4 e [])) eqn:Ef.
      - repeat split; [apply (paren_lvl (next_kinds e) _ _ []); [apply next_cases|apply tame_toks; assumption|apply IHe; [exact W|exact L0|lia]|lia]|unfold paren_toks; tam; apply tame_toks; assumption|apply paren_unsigned].
      - repeat split; [apply AT; [exact IHe|exact W|exact L0|lia|intros; lia]|apply AL; assumption|apply UN; [assumption|lia]|exact Ef]. }
    destruct Hf as ((t & R & H) & Tf & Uf & Df). exists [TNumber ds; t]. split; [apply R_more; [apply reads_num, Wd|apply R_one, R]|].
    change (toks (Scale ds e) ld) with (digits ld ds ++ factor_toks e).
    assert (Aj : forall ks, after (C2 ++ J) (factor_toks e) ks).
    { intros ks rest S. destruct Uf as (x & r & E & M). rewrite E in *. cbn [app stop first_is] in *. unfold mem in *. cbn [existsb] in M. rewrite Df in M. cbn [orb] in M. rewrite existsb_app. rewrite M. apply orb_true_r. }
    apply (more3 J); [|apply lift3, (B4_A4 (next_kinds e)), H|destruct ds; [destruct Wd; congruence|discriminate]|exact Tf|exact Aj].
    intro n. apply close4j; [left; reflexivity|]. apply lift4j. intro n0. apply (lift5_gen n0 _ _ (C5 ++ J)); [reflexivity|reflexivity|apply f_num, Wd].
  - (* Fact *) pose proof (AT e ld 4%nat IHe W L ltac:(lia) ltac:(intros; lia)) as (t & R & H).
    apply lower; [apply next_cases|cbn; lia|exact TT|intros _; apply UU; cbn; lia|]. exists (TBang t). split; [apply R_bang, R|].
    change (toks (Fact e) ld) with (at_level 4 e ld ++ [tok w_bang []]).
    intros n d l ks Td Hm Af. rewrite <- app_assoc.
    apply (B4_A4 _ _ _ H n ([tok w_bang []] ++ d) (TBang :: l) ks); [tam| |apply after_cons; reflexivity].
    apply (many_cons n _ [tok w_bang []] TBang d l (C4 ++ next_kinds (Fact e)) ks); [discriminate| |exact Td|exact Af|exact Hm].
    apply r_left. apply (r_map n (fun _ => TBang) _ _ (tok w_bang [])). apply (r_tok n w_bang).
  - (* Pow *) destruct W as [W1 W2]. destruct (EX e2 [] IHe2 W2 L0) as (t' & R' & H').
    assert (T2 : tame (toks e2 [])) by (apply tame_toks; assumption).
    apply lower; [apply next_cases|cbn; lia|exact TT|intros _; apply UU; cbn; lia|].
    assert (Ex : (exists x, e1 = Sym x) \/ (forall x, e1 = Sym x -> (6 <= 5)%nat)) by (destruct e1; try (right; discriminate); left; eauto).
    destruct Ex as [[x ->]|Ns].
    + destruct (sym_named x ld W1) as (nm & En & Nm). exists (TSymbol nm None (Some t')). split; [cbn [value]; apply R_power_symbol; assumption|].
      intro n. apply (lift5_gen n _ _ (C5 ++ JN)); [reflexivity|reflexivity|]. refine (f_sym_pow n (tok (w_sym x) ld) nm _ t' En H' T2).
    + destruct (AT e1 ld 6%nat IHe1 W1 L ltac:(lia) Ns) as (t & R & H). exists (TPow t t'). split; [apply R_pow; assumption|].
      change (toks (Pow e1 e2) ld) with (at_level 6 e1 ld ++ tok w_caret [] :: tok w_lbrace [] :: toks e2 [] ++ [tok w_rbrace []]).
      intro n. unfold exp. apply (r_bind n _ _ _ t _ _ C5); [apply B6_A6, H|tam|apply after_cons; reflexivity|].
      apply (r_end n _ _ _ [t']); [|apply r_ret]. apply r_many. rewrite <- (app_nil_r (tok w_caret [] :: _)).
      assert (En : next_kinds (Pow e1 e2) = J) by (destruct e1; try reflexivity; specialize (Ns _ eq_refl); lia). rewrite En.
      apply (many_cons n _ _ t' [] [] (C4 ++ J)); [discriminate|apply f_pow; assumption|apply tame_nil|apply stop_sub; reflexivity|].
      apply many_nil, dead_exp_op.
  - (* Exp *) destruct (EX e [] IHe W L0) as (t & R & H). apply lower; [apply next_cases|cbn; lia|exact TT|intros _; apply UU; cbn; lia|].
    exists (TExp (Some t)). split; [apply R_e_power, R|]. apply lift5j; [apply next_cases|]; apply f_e; [apply tame_toks; assumption|exact H].
  - (* Frac *) destruct W as [W1 W2]. destruct (EX e1 [] IHe1 W1 L0) as (t & R & H). destruct (EX e2 [] IHe2 W2 L0) as (t' & R' & H').
    apply lower6; [apply next_cases|exact TT|apply UU; cbn; lia|]. exists (TFrac t t' (upper_info (toks e1 [])) DNone). split; [apply R_frac; assumption|].
    apply f_frac; [apply tame_toks; assumption|exact H|apply tame_toks; assumption|exact H'|apply lettered_lower, lettered_toks; assumption].
  - (* Binom *) destruct W as [W1 W2]. destruct (EX e1 [] IHe1 W1 L0) as (t & R & H). destruct (EX e2 [] IHe2 W2 L0) as (t' & R' & H').
    apply lower6; [apply next_cases|exact TT|apply UU; cbn; lia|]. exists (TBinom t t'). split; [apply R_binom; assumption|].
    apply f_binom; [apply tame_toks; assumption|exact H|apply tame_toks; assumption|exact H'].
  - (* Sqrt *) destruct (EX e [] IHe W L0) as (t & R & H). apply lower6; [apply next_cases|exact TT|apply UU; cbn; lia|].
    exists (TSqrt t None). split; [apply R_sqrt, R|]. apply f_sqrt; [apply tame_toks; assumption|exact H].
  - (* Root *) destruct W as [W1 W2]. destruct (EX e1 [] IHe1 W1 L0) as (t & R & H). destruct (EX e2 [] IHe2 W2 L0) as (t' & R' & H').
    apply lower6; [apply next_cases|exact TT|apply UU; cbn; lia|]. exists (TSqrt t' (Some t)). split; [apply R_root; assumption|].
    apply f_root; first [exact H|exact H'|apply tame_toks; assumption].
  - (* Abs *) destruct (EX e [] IHe W L0) as (t & R & H). apply lower6; [apply next_cases|exact TT|apply UU; cbn; lia|].
    exists (TAbs t). split; [apply R_abs, R|]. apply f_abs; [apply tame_toks; assumption|exact H].
  - (* Floor *) destruct (EX e gap IHe W L1) as (t & R & H). apply lower6; [apply next_cases|exact TT|apply UU; cbn; lia|].
    exists (TFloor t). split; [apply R_floor, R|]. apply f_floor; [apply tame_toks; assumption|exact H].
  - (* Ceil *) destruct (EX e gap IHe W L1) as (t & R & H). apply lower6; [apply next_cases|exact TT|apply UU; cbn; lia|].
    exists (TCeil t). split; [apply R_ceil, R|]. apply f_ceil; [apply tame_toks; assumption|exact H].
  - (* Fn *) destruct W as [Wf W]. destruct (EX e [] IHe W L0) as (t & R & H). apply lower6; [apply next_cases|exact TT|apply UU; cbn; lia|].
    exists (TFunc f [] None None t). split; [apply fn_reads; assumption|].
    refine (f_fn _ t (tok (w_fn f) ld) _ H _); [apply tame_toks; assumption|].
    pose proof functions_fine as T. rewrite forallb_forall in T. apply (T f Wf).
  - (* Group *) apply paren_lvl; [apply next_cases|apply tame_toks; assumption|]. destruct (IHe [] W L0 0%nat ltac:(lia)) as (t & R & H). exists t. split; assumption.
  - (* Juxt *) destruct W as [W1 W2]. apply lower; [apply next_cases|cbn; lia|exact TT|intros _; apply UU; cbn; lia|].
    assert (Hr : (exists ts, reads_all ts (value KA rho e2) /\ A3 (right_toks gap e2) ts) /\ tame (right_toks gap e2) /\ unsigned (right_toks gap e2) /\ first_is K_DIGIT (right_toks gap e2) = false).
    { unfold right_toks. destruct (first_is K_DIGIT (at_level 3 e2 gap)) eqn:Ef.
      - repeat split; [apply (paren_lvl (next_kinds e2) _ _ gap) with (l' := 3%nat); [apply next_cases|apply tame_toks; assumption|apply IHe2; [exact W2|exact L0|lia]|lia]|unfold paren_toks; tam; apply tame_toks; assumption|apply paren_unsigned].
      - repeat split; [apply (AT e2 gap 3%nat); [exact IHe2|exact W2|exact L1|lia|intros; lia]|apply AL; assumption|apply UN; [assumption|lia]|exact Ef]. }
    destruct Hr as ((ts & R & H) & Tr & Ur & Dr).
    assert (Hl : exists t j, reads t (value KA rho e1) /\ (j = J \/ j = JN) /\ B4 j (left_toks gap e1 e2 ld) t /\
      (j = JN -> first_is K_L_PAREN (right_toks gap e2) = false /\ first_is K_L_LEFT (right_toks gap e2) = false)).
    { destruct (left_cases e1 e2 ld W1) as [E|(E & Lp & Cl)]; rewrite E.
      - destruct (paren_lvl J (toks e1 []) (value KA rho e1) ld) with (l' := 4%nat) as (t & R1 & H1); [left; reflexivity|apply tame_toks; assumption| |lia|].
        + destruct (IHe1 [] W1 L0 0%nat ltac:(lia)) as (t & R1 & H1). exists t. split; assumption.
        + exists t, J. split; [exact R1|]. split; [left; reflexivity|]. split; [exact H1|]. intro X0. discriminate X0.
      - destruct (IHe1 ld W1 L 4%nat) as (t & R1 & H1); [destruct e1; cbn [prec' prec] in *; lia|]. exists t, (next_kinds e1). split; [exact R1|]. split; [apply next_cases|]. split; [exact H1|].
        intro X0. apply orb_false_iff in Cl. destruct Cl as [Cl _]. apply orb_false_iff in Cl. destruct Cl as [_ Cl]. unfold next_kinds in X0. destruct (ends_name e1); [|discriminate X0]. cbn [andb] in Cl. apply orb_false_iff in Cl. exact Cl. }
    destruct Hl as (t & j & R1 & Hj & H1 & Nx). exists (t :: ts). split; [cbn [value]; apply R_more; assumption|].
    change (toks (Juxt e1 e2) ld) with (left_toks gap e1 e2 ld ++ right_toks gap e2).
    apply (more3 j); [intro n; apply close4j; assumption|exact H| |exact Tr|].
    + destruct (left_cases e1 e2 ld W1) as [-> | (-> & _)]; [discriminate|]. eapply begins_ne, toks_begin, W1.
    + intros ks rest S. destruct Ur as (x & r & E & M). rewrite E in *. cbn [app stop first_is] in *. unfold mem in *. cbn [existsb] in M. rewrite Dr in M. cbn [orb] in M.
      rewrite existsb_app. apply orb_true_iff. right. destruct Hj as [-> | ->]; [exact M|]. destruct (Nx eq_refl) as [N1 N2].
      cbn in M |- *. rewrite N1, N2 in M. exact M.
Qed.
End Main.

(** Parsing the written expression *)
Theorem parse_body gap {A} (KA : arithmetic A) V (den : V -> A) rho values hash e : gap = [] \/ gap = [32] -> wf e ->
  exists t, parse_text (body gap e) = Found (MRel (RExpr t)) /\ Reads KA V den rho values hash t (value KA rho e).
Proof.
  intros Hg W. destruct (main gap Hg KA V den rho values hash e [] W (or_introl eq_refl) 0%nat ltac:(lia)) as (t & R & H).
  exists t. split; [|exact R]. unfold parse_text. rewrite (lex_latex gap Hg e W). unfold parse, math. apply close0 in H.
  unfold palt. replace (pmap MRel _ _ _) with (Found (MRel (RExpr t))); [reflexivity|]. symmetry.
  rewrite <- (app_nil_r (toks gap e [])) at 2. unfold pmap, pbind at 1, pret, relation, pbind at 1.
  apply (inner (toks gap e []) t H (S (List.length (toks gap e []))) (List.length (toks gap e []))); [lia|rewrite app_nil_r; lia|constructor|exact I|].
  reflexivity.
Qed.
(** From the text to the value *)
Theorem latex2sympy_body gap {A} (KA : arithmetic A) V (O : LSympy V) den rho vs n e st : gap = [] \/ gap = [32] ->
  faithful KA V den rho vs (o_md5 _ O) O -> (forall s t, parse_text s = Found t -> o_parse _ O s = Ret t) -> wf e -> g_var st = [] ->
  exists v, fst (latex2sympy O (S n) (body gap e) vs st) = Ret (LV v) /\ worth V den O v (value KA rho e).
Proof.
  intros Hg F P W E. destruct (parse_body gap KA V den rho vs (o_md5 _ O) e Hg W) as (t & Ht & R).
  apply (latex2sympy_value KA V O den rho vs t); [exact F| |exact R|exact E]. rewrite (prepare_latex gap Hg e W). apply P, Ht.
Qed.
Theorem parse_latex {A} (KA : arithmetic A) V (den : V -> A) rho values hash e : wf e ->
  exists t, parse_text (latex e) = Found (MRel (RExpr t)) /\ Reads KA V den rho values hash t (value KA rho e).
Proof. apply parse_body. right; reflexivity. Qed.
Theorem latex2sympy_arith {A} (KA : arithmetic A) V (O : LSympy V) den rho vs n e st :
  faithful KA V den rho vs (o_md5 _ O) O -> (forall s t, parse_text s = Found t -> o_parse _ O s = Ret t) -> wf e -> g_var st = [] ->
  exists v, fst (latex2sympy O (S n) (latex e) vs st) = Ret (LV v) /\ worth V den O v (value KA rho e).
Proof. apply latex2sympy_body. right; reflexivity. Qed.
