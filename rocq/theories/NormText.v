(** Words in \text inside or after a number (latex_normalize.py:346-349). *)
From Coq Require Import String List NArith ZArith Bool Lia Arith.
From Verif Require Import UnicodeTables PyStr PyStrTheory NumTheory Regex RegexTheory Float64 FloatTheory Constants Normalize NormTheory RegexFirst NormNum NormPct NormMixed NormSci NormTime NormShape NormClean NormUnits Monad Split Eval EvalTheory.
Import ListNotations.
Local Open Scope N_scope.
Local Arguments N.eqb : simpl never.

(** * Specification *)
(** Letters and spaces *)
Definition word_char (c : N) : Prop := 97 <= c <= 122 \/ 65 <= c <= 90 \/ c = 32.
(** Words that mean something to the normaliser before it drops \text *)
Definition heeded : list pystr := map u ["and"; "or"; "million"; "billion"; "trillion"]%string.
Definition unheeded (w : pystr) : Prop :=
  w <> [] /\ Forall word_char w /\ (forall p, In p heeded -> ~ infix p w) /\ w <> u "cases" /\ w <> u "array".
Definition in_text (w : pystr) : pystr := u "\text{" ++ w ++ u "}".

(** * Proof *)
Lemma infix_apart (c : N) (p A B : pystr) : ~ In c p -> infix p (A ++ c :: B) -> infix p A \/ infix p B.
Proof.
  intros Hc (x & y & E). apply app_eq_app in E. destruct E as (l & [[E1 E2]|[E1 E2]]).
  - subst A. destruct l as [|d l]; cbn [app] in E2.
    + destruct p as [|e p]; [left; exists x, []; rewrite !app_nil_r; reflexivity|]. injection E2 as -> _. exfalso. apply Hc. left. reflexivity.
    + rewrite app_comm_cons in E2. symmetry in E2. apply app_eq_app in E2. destruct E2 as (m & [[F1 F2]|[F1 F2]]).
      * left. exists x, m. rewrite F1. reflexivity.
      * subst p. destruct m as [|e m]; [left; exists x, []; rewrite !app_nil_r; reflexivity|]. cbn [app] in F2. injection F2 as -> _. exfalso. apply Hc, in_or_app. right. left. reflexivity.
  - destruct l as [|d l]; cbn [app] in E2.
    + destruct p as [|e p]; [right; exists [], B; reflexivity|]. injection E2 as -> _. exfalso. apply Hc. left. reflexivity.
    + injection E2 as _ E2. right. exists l, y. exact E2.
Qed.
(** A character that occurs once splits in one way *)
Lemma split_once (c : N) (A B A' B' : pystr) : ~ In c A -> ~ In c A' -> A ++ c :: B = A' ++ c :: B' -> A = A' /\ B = B'.
Proof.
  revert A'. induction A as [|x A IH]; intros [|y A'] H H' E; cbn [app] in E.
  - injection E as ->. auto.
  - injection E as -> _. destruct H'. left. reflexivity.
  - injection E as -> _. destruct H. left. reflexivity.
  - injection E as -> E. destruct (IH A') as [-> ->]; auto; intro X; [apply H|apply H']; right; exact X.
Qed.

Lemma split_only (c : N) (A B x y : pystr) : ~ In c A -> ~ In c B -> A ++ c :: B = x ++ c :: y -> A = x /\ B = y.
Proof.
  revert x. induction A as [|a A IH]; intros [|d x] H H' E; cbn [app] in E.
  - injection E as ->. auto.
  - injection E as -> E. exfalso. apply H'. rewrite E. apply in_or_app. right. left. reflexivity.
  - injection E as -> _. destruct H. left. reflexivity.
  - injection E as -> E. destruct (IH x) as [-> ->]; auto. intro X. apply H. right. exact X.
Qed.

Lemma app_cut (a b c d : pystr) : List.length a = List.length c -> a ++ b = c ++ d -> a = c /\ b = d.
Proof. revert c. induction a as [|x a IH]; intros [|y c] L E; cbn in L; try discriminate; [auto|]. cbn [app] in E. injection E as -> E. injection L as L. destruct (IH c L E) as [-> ->]. auto. Qed.

Section T.
Variables w b : pystr.
Hypothesis Hw : unheeded w.
Hypothesis Hb : Forall ascii_digit b.
Definition suffix : pystr := in_text w ++ b.
Lemma suffix_eq : suffix = u "\text" ++ 123 :: (w ++ 125 :: b).
Proof. unfold suffix, in_text. rewrite <- !app_assoc. reflexivity. Qed.
Lemma word_not c : In c w -> word_char c.
Proof. destruct Hw as (_ & F & _). rewrite Forall_forall in F. apply F. Qed.
Lemma digit_in c : In c b -> ascii_digit c.
Proof. rewrite Forall_forall in Hb. apply Hb. Qed.
Lemma once_bslash : exists t, suffix = 92 :: 116 :: t /\ ~ In 92 (116 :: t).
Proof.
  exists (u "ext" ++ 123 :: (w ++ 125 :: b)). split; [apply suffix_eq|]. intro H. change (116 :: u "ext" ++ 123 :: (w ++ 125 :: b)) with (u "text" ++ 123 :: (w ++ 125 :: b)) in H.
  apply in_app_or in H. destruct H as [H|[H|H]]; [vm_compute in H; intuition discriminate|discriminate|].
  apply in_app_or in H. destruct H as [H|[H|H]]; [apply word_not in H; unfold word_char in H; lia|discriminate|apply digit_in in H; unfold ascii_digit in H; lia].
Qed.
Definition text_cp : N -> bool := fun c => (48 <=? c) && (c <=? 57) || (97 <=? c) && (c <=? 122) || (65 <=? c) && (c <=? 90) || mem_cp [32; 92; 123; 125] c.
Lemma suffix_alpha : forallb text_cp suffix = true.
Proof.
  rewrite suffix_eq, forallb_app. cbn [forallb]. rewrite forallb_app. cbn [forallb]. rewrite !andb_true_iff. repeat split.
  - apply forallb_forall. intros c Hc. apply word_not in Hc. unfold word_char in Hc. unfold text_cp.
    destruct Hc as [Hc|[Hc| ->]]; [| |reflexivity]; rewrite !orb_true_iff, !andb_true_iff, !N.leb_le; tauto.
  - apply forallb_forall. intros c Hc. apply digit_in in Hc. unfold ascii_digit in Hc. unfold text_cp. rewrite !orb_true_iff, !andb_true_iff, !N.leb_le. tauto.
Qed.
(** words of letters occur in [w] only *)
Lemma letters_inside p : Forall (fun c => 97 <= c <= 122) p -> p <> [] -> contains p (u "\text") = false -> infix p suffix -> infix p w.
Proof.
  intros F N C H. rewrite Forall_forall in F. rewrite suffix_eq in H.
  apply infix_apart in H; [|intro X; apply F in X; lia]. destruct H as [H|H]; [apply infix_contains in H; congruence|].
  apply infix_apart in H; [|intro X; apply F in X; lia]. destruct H as [H|H]; [exact H|exfalso].
  destruct p as [|c p]; [congruence|]. assert (In c b) as X by (apply (infix_in _ _ _ H); left; reflexivity). apply digit_in in X. specialize (F c (or_introl eq_refl)). unfold ascii_digit in X. lia.
Qed.
Lemma heeded_out p : In p heeded -> ~ infix p suffix.
Proof.
  intros Hp H. destruct Hw as (_ & _ & N & _). apply (N p Hp). apply letters_inside; [| | |exact H].
  - destruct Hp as [<-|[<-|[<-|[<-|[<-|[]]]]]]; repeat (constructor; [vm_compute; split; discriminate|]); constructor.
  - destruct Hp as [<-|[<-|[<-|[<-|[<-|[]]]]]]; discriminate.
  - destruct Hp as [<-|[<-|[<-|[<-|[<-|[]]]]]]; reflexivity.
Qed.
Lemma heeded_contains p : In p heeded -> contains p suffix = false.
Proof. intro H. apply not_true_is_false. intro X. apply infix_contains in X. exact (heeded_out p H X). Qed.
Lemma braced_out v : ~ In 125 v -> w <> v -> contains (123 :: v ++ [125]) suffix = false.
Proof.
  intros Hv N. apply not_true_is_false. intro X. apply infix_contains in X. destruct X as (x & y & E). rewrite suffix_eq in E.
  rewrite <- !app_comm_cons, <- app_assoc in E. cbn [app] in E.
  apply split_only in E.
  2:{ vm_compute. intuition discriminate. }
  2:{ intro X. apply in_app_or in X. destruct X as [X|[X|X]]; [apply word_not in X; unfold word_char in X; lia|discriminate|apply digit_in in X; unfold ascii_digit in X; lia]. }
  destruct E as [_ E].
  apply split_once in E; [|intro X; apply word_not in X; unfold word_char in X; lia|exact Hv]. destruct E as [E _]. exact (N E).
Qed.
Lemma no_double : contains (u "\\") suffix = false.
Proof.
  apply not_true_is_false. intro X. apply infix_contains in X. destruct X as (x & y & E). destruct once_bslash as (t & E' & H). rewrite E' in E.
  destruct x as [|c x]; cbn [app] in E; [injection E; discriminate|]. injection E as _ E. apply H. rewrite E. apply in_or_app. right. left. reflexivity.
Qed.
Lemma no_command c s : c <> 116 -> ~ infix (92 :: c :: s) suffix.
Proof.
  intros N (x & y & E). destruct once_bslash as (t & E' & H). rewrite E' in E.
  destruct x as [|d x]; cbn [app] in E; [injection E as E _; congruence|]. injection E as _ E. apply H. rewrite E. apply in_or_app. right. left. reflexivity.
Qed.
Lemma tex_space : del_tex_space suffix = suffix.
Proof.
  unfold del_tex_space. cbv zeta. rewrite (alpha_del text_cp (rs "\:") suffix eq_refl suffix_alpha), (alpha_del text_cp (rs "\,") suffix eq_refl suffix_alpha), (alpha_del text_cp (rs "\;") suffix eq_refl suffix_alpha), (alpha_del text_cp (rs "\!") suffix eq_refl suffix_alpha). apply (alpha_sub text_cp); [vm_compute; reflexivity|exact suffix_alpha].
Qed.
Lemma den_rstr p v : den (rstr p) v -> v = p.
Proof.
  revert v. induction p as [|c p IH]; intros v H; cbn [rstr den] in H; [exact H|]. destruct H as (w1 & w2 & -> & (d & -> & Hd) & H2). cbn [cls_in] in Hd. apply N.eqb_eq in Hd. subst d.
  rewrite (IH _ H2). reflexivity.
Qed.
Lemma den_and_or v : den and_or_re v -> infix (u "and") v \/ infix (u "or") v.
Proof.
  assert (A : forall x, den andor x -> infix (u "and") x \/ infix (u "or") x).
  { intros x [H|H]; apply den_rstr in H; subst x; [left|right]; apply infix_refl. }
  assert (L : forall x y, infix (u "and") x \/ infix (u "or") x -> infix (u "and") (y ++ x) \/ infix (u "or") (y ++ x)) by (intros x y [H|H]; [left|right]; apply infix_app_r, H).
  assert (R : forall x y, infix (u "and") x \/ infix (u "or") x -> infix (u "and") (x ++ y) \/ infix (u "or") (x ++ y)) by (intros x y [H|H]; [left|right]; apply infix_app_l, H).
  unfold and_or_re. cbn [rseq den]. intros (w1 & w2 & -> & _ & w3 & w4 & -> & _ & w5 & w6 & -> & H & ->). rewrite app_nil_r. apply L, L. destruct H as [H|H].
  - destruct H as (x1 & x2 & -> & _ & x3 & x4 & -> & _ & x5 & x6 & -> & H & _). apply L, L, R, A, H.
  - destruct H as (x1 & x2 & -> & _ & x3 & x4 & -> & H & _). apply L, R, A, H.
Qed.
Lemma den_in v : den in_re v -> infix (u "\in") v.
Proof. unfold in_re. cbn [rseq den]. intros (w1 & w2 & -> & _ & w3 & w4 & -> & _ & w5 & w6 & -> & H & ->). apply den_rstr in H. subst w5. rewrite app_nil_r. apply infix_app_r, infix_app_r, infix_refl. Qed.
Lemma words_kept : rewrite_words suffix = suffix.
Proof.
  unfold rewrite_words. cbv zeta.
  rewrite (alpha_replace text_cp (u "\$") _ suffix eq_refl suffix_alpha), (alpha_replace text_cp (u "$") [] suffix eq_refl suffix_alpha).
  assert (re_sub and_or_re [PLit (u " , ")] suffix = suffix) as ->.
  { apply sub_id_den. intros v Hv _ Hd. apply den_and_or in Hd. destruct Hd as [Hd|Hd]; refine (heeded_out _ _ (infix_trans _ _ _ Hd Hv)); cbn; tauto. }
  rewrite (replace_absent (u "million")) by (apply heeded_contains; cbn; tauto). rewrite (replace_absent (u "billion")) by (apply heeded_contains; cbn; tauto).
  rewrite (replace_absent (u "trillion")) by (apply heeded_contains; cbn; tauto).
  rewrite (alpha_replace text_cp [12] _ suffix eq_refl suffix_alpha), (alpha_replace text_cp [8] _ suffix eq_refl suffix_alpha), (alpha_replace text_cp [7] _ suffix eq_refl suffix_alpha),
    (alpha_replace text_cp [9] _ suffix eq_refl suffix_alpha), (alpha_replace text_cp [13] _ suffix eq_refl suffix_alpha).
  rewrite (alpha_sub text_cp (rs "\left(") _ suffix eq_refl suffix_alpha), (alpha_sub text_cp (rs "\left[") _ suffix eq_refl suffix_alpha),
    (alpha_sub text_cp (rs "\right)") _ suffix eq_refl suffix_alpha), (alpha_sub text_cp (rs "\right]") _ suffix eq_refl suffix_alpha).
  apply sub_id_den. intros v Hv _ Hd. apply den_in in Hd. apply (no_command 105 (u "n")); [discriminate|]. exact (infix_trans _ _ _ Hd Hv).
Qed.

(** ** Deletion *)
Lemma b_no c : ~ ascii_digit c -> ~ In c b.
Proof. intros H X. apply H, digit_in, X. Qed.
(** the end of the patterns *)
Definition closing : list regex := [lit 125; RStarG sp; power].
Lemma closing_end pre v r cs st : suffix = v ++ r -> In st (matches (rseq closing) (MSt pre r cs)) -> after st = b.
Proof.
  intros E H. unfold closing in H. apply in_rseq_cons in H. destruct H as (st1 & H1 & H). apply in_chr in H1. destruct H1 as (c & s1 & -> & Hc & ->).
  cbn [cls_in] in Hc. apply N.eqb_eq in Hc. subst c. rewrite suffix_eq in E. rewrite app_comm_cons, app_assoc in E.
  assert (A : ~ In 125 (u "\text" ++ 123 :: w)).
  { intro X. apply in_app_or in X. destruct X as [X|[X|X]]; [vm_compute in X; intuition discriminate|discriminate|apply word_not in X; unfold word_char in X; lia]. }
  apply split_only in E; [|exact A|apply b_no; unfold ascii_digit; lia]. destruct E as [_ <-].
  apply in_rseq_cons in H. destruct H as (st2 & H2 & H). apply in_star_chr in H2. destruct H2 as (x & s2 & Eb & Hx & ->).
  assert (x = []) as ->.
  { destruct x as [|c x]; [reflexivity|]. cbn [forallb] in Hx. apply andb_true_iff in Hx. destruct Hx as [Hc _]. cbn [cls_in] in Hc. apply N.eqb_eq in Hc. subst c. exfalso. apply (b_no 32); [unfold ascii_digit; lia|]. rewrite Eb. left. reflexivity. }
  cbn [app] in Eb. subst s2. apply in_rseq_cons in H. destruct H as (st3 & H3 & H). apply in_rseq_nil in H. subst st3.
  unfold power in H3. apply in_opt in H3. destruct H3 as [H3| ->]; [exfalso|reflexivity].
  assert (X : In 94 b); [|apply (b_no 94) in X; [exact X|unfold ascii_digit; lia]].
  apply matches_sound in H3. destruct H3 as (v' & [Hv _] & Hd & _). cbn [after] in Hv. rewrite Hv. apply in_or_app. left.
  apply (needs_lit_sound 94 (RAlt (rseq [lit 94; digit]) (rseq [rs "^{"; RPlus digit; lit 125]))); [reflexivity|exact Hd].
Qed.
Lemma rseq_app l k st st' : In st' (matches (rseq (l ++ k)) st) -> exists st1, In st1 (matches (rseq l) st) /\ In st' (matches (rseq k) st1).
Proof.
  revert st. induction l as [|r l IH]; intros st H; [exists st; split; [left; reflexivity|exact H]|].
  cbn [app] in H. apply in_rseq_cons in H. destruct H as (st1 & H1 & H). destruct (IH st1 H) as (st2 & H2 & H3). exists st2. split; [|exact H3].
  apply in_rseq_cons. exists st1. auto.
Qed.
Lemma del_or l : needs_lit 92 (rseq (l ++ closing)) = true ->
  (match_at (rseq (l ++ closing)) [] suffix = None /\ re_del (rseq (l ++ closing)) suffix = suffix) \/ re_del (rseq (l ++ closing)) suffix = b.
Proof.
  intro H92. set (r := rseq (l ++ closing)) in *. destruct once_bslash as (t & Es & Ht). destruct (match_at r [] suffix) as [st|] eqn:E.
  - right. assert (A : after st = b).
    { apply hd_error_in in E. unfold r in E. apply rseq_app in E. destruct E as (st1 & H1 & H2). apply matches_sound in H1. destruct H1 as (v & [Hv _] & _). cbn [after] in Hv.
      destruct st1 as [pre rest cs]. exact (closing_end pre v rest cs st Hv H2). }
    pose proof (match_at_sound _ _ _ _ E) as (v & H1 & _ & Hd & _). rewrite A in H1. unfold re_del, re_sub, re_sub_fun. rewrite H1 in E |- *.
    rewrite (sub_go_match r _ [] v b st E A).
    + cbn [expand flat_map app]. apply sub_go_id_den. intros x Hx _ Hdx. apply (b_no 92); [unfold ascii_digit; lia|]. apply (infix_in _ _ _ Hx), (needs_lit_sound 92 r); assumption.
    + intros ->. apply (needs_lit_sound 92 r) in Hd; [destruct Hd|exact H92].
  - left. split; [reflexivity|]. unfold re_del, re_sub, re_sub_fun. rewrite Es in *. rewrite sub_go_none by exact E. f_equal.
    apply sub_go_id_den. intros x Hx _ Hdx. apply Ht. apply (infix_in _ _ _ Hx), (needs_lit_sound 92 r); assumption.
Qed.
Lemma b_num : forallb num_cp b = true.
Proof. exact (digits_and_digit _ b Hb). Qed.
Lemma unit_closing cmd x : unit_text_re cmd x = rseq ([RPlus (lit bslash); rstr cmd; lit 123; RStarG (RChr CSpace); unit_pat x; plural; RStarG sp; power] ++ closing).
Proof. reflexivity. Qed.
Definition text_front : list regex := [RPlus (lit bslash); rs "text{"; RPlus (RChr (COr (CRange 97 122) (COr (CRange 65 90) (CLit 32)))); power; RStarG sp].
Lemma text_closing : text_re = rseq (text_front ++ closing).
Proof. reflexivity. Qed.
Lemma text_matches : match_at text_re [] suffix <> None.
Proof.
  destruct Hw as (N & F & _). intro E. apply match_at_none in E.
  assert (X : In (MSt (rev suffix ++ []) [] []) [] \/ exists st, In st (matches text_re (MSt [] suffix []))); [right|destruct X as [[]|[st X]]; rewrite E in X; destruct X].
  exists (MSt (125 :: rev w ++ rev (u "text{") ++ [92]) b []). rewrite suffix_eq. change (u "\text" ++ 123 :: w ++ 125 :: b) with (92 :: u "text{" ++ w ++ 125 :: b).
  unfold text_re. apply in_rseq_cons. exists (MSt [92] (u "text{" ++ w ++ 125 :: b) []). split; [apply in_plus_chr; exists [92], (u "text{" ++ w ++ 125 :: b); repeat split; discriminate|].
  apply in_rseq_cons. exists (MSt (rev (u "text{") ++ [92]) (w ++ 125 :: b) []). split; [apply in_rstr; eexists; split; reflexivity|].
  apply in_rseq_cons. exists (MSt (rev w ++ rev (u "text{") ++ [92]) (125 :: b) []). split.
  { apply in_plus_chr. exists w, (125 :: b). repeat split; [exact N|]. apply forallb_forall. intros c Hc. apply word_not in Hc. unfold word_char in Hc. cbn [cls_in].
    destruct Hc as [Hc|[Hc| ->]]; [| |reflexivity]; rewrite !orb_true_iff, !andb_true_iff, !N.leb_le; lia. }
  apply in_rseq_cons. eexists. split; [apply in_opt; right; reflexivity|]. apply in_rseq_cons. eexists. split; [apply in_star_chr; exists [], (125 :: b); repeat split|].
  apply in_rseq_cons. eexists. split; [apply in_chr; exists 125, b; repeat split|]. apply in_rseq_cons. eexists. split; [apply in_star_chr; exists [], b; repeat split|].
  apply in_rseq_cons. eexists. split; [apply in_opt; right; reflexivity|]. apply in_rseq_nil. reflexivity.
Qed.
Lemma units_need : forallb (fun x => needs_lit 92 (unit_text_re (u "text") x) && needs_lit 92 (unit_text_re (u "mbox") x)) UNIT_LIST = true.
Proof. vm_compute. reflexivity. Qed.
Lemma b_del r : needs_lit 92 r = true -> re_del r b = b.
Proof. intro H. apply (sub_id_lit 92); [exact H|]. apply b_no. unfold ascii_digit. lia. Qed.
Lemma text_units_or : del_text_units suffix = suffix \/ del_text_units suffix = b.
Proof.
  unfold del_text_units. pose proof units_need as T. rewrite forallb_forall in T.
  assert (S : forall r e, (exists l, r = rseq (l ++ closing)) -> needs_lit 92 r = true -> e = suffix \/ e = b -> re_del r e = suffix \/ re_del r e = b).
  { intros r e (l & ->) H [->| ->]; [destruct (del_or l H) as [[_ X]|X]; auto|right; apply b_del, H]. }
  assert (G : forall us e, (forall x, In x us -> In x UNIT_LIST) -> e = suffix \/ e = b ->
    let e' := fold_left (fun e unit => re_del (unit_text_re (u "mbox") unit) (re_del (unit_text_re (u "text") unit) e)) us e in e' = suffix \/ e' = b).
  { induction us as [|x us IH]; intros e Hu He; [exact He|]. cbn [fold_left]. apply IH; [intros y Hy; apply Hu; right; exact Hy|].
    specialize (T x (Hu x (or_introl eq_refl))). apply andb_true_iff in T. destruct T as [T1 T2].
    apply S; [eexists; apply unit_closing|exact T2|]. apply S; [eexists; apply unit_closing|exact T1|exact He]. }
  apply (G UNIT_LIST suffix); auto.
Qed.
Lemma units_gone : del_units suffix = b.
Proof.
  unfold del_units. assert (re_del text_re (del_text_units suffix) = b) as ->.
  { destruct text_units_or as [->| ->]; [|apply b_del; reflexivity]. pose proof text_matches as M. rewrite text_closing in *. destruct (del_or text_front eq_refl) as [[X _]|X]; [contradiction|exact X]. }
  pose proof (inert_units num_cp num_inert b b_num) as I. unfold del_units in I.
  assert (del_text_units b = b) as E.
  { unfold del_text_units. pose proof units_need as T. rewrite forallb_forall in T. apply fold_id. intros x Hx. specialize (T x Hx). apply andb_true_iff in T. destruct T as [T1 T2]. rewrite (b_del _ T1). apply b_del, T2. }
  rewrite E, (b_del text_re eq_refl) in I. exact I.
Qed.

(** ** The whole *)
Variable P : pystr.
Hypothesis Hne : P <> [].
Hypothesis HP : forallb int_cp P = true.
Lemma text_tail ints : re_search time_re1 (P ++ suffix) = None -> string_normalize ints (P ++ suffix) = norm_circ ints (P ++ b).
Proof.
  intro Ht. destruct (int_head P suffix Hne HP) as (c & r & Ec & Hc).
  assert (L : forall x, text_cp x = false -> lacks x suffix = true).
  { intros x Hx. unfold lacks. apply negb_true_iff, not_true_is_false. intro X. unfold mem_cp in X. apply existsb_exists in X. destruct X as (y & Hy & E). apply N.eqb_eq in E. subst y.
    pose proof suffix_alpha as F. rewrite forallb_forall in F. rewrite (F x Hy) in Hx. discriminate. }
  assert (Hp : prepared (P ++ suffix) = P ++ suffix).
  { unfold prepared. assert (strip_sp (P ++ suffix) = P ++ suffix) as ->.
    { apply strip_by_id.
      - rewrite Ec. apply N.eqb_neq. intros <-. discriminate Hc.
      - rewrite rev_app_distr, suffix_eq. rewrite rev_app_distr. cbn [rev]. rewrite rev_app_distr. cbn [rev]. rewrite <- !app_assoc.
        destruct (rev b) as [|x l] eqn:Er; [reflexivity|]. cbn [app]. apply N.eqb_neq. intro E. assert (In x b) as X by (apply in_rev; rewrite Er; left; reflexivity). apply digit_in in X. unfold ascii_digit in X. lia. }
    unfold str_matrix_normalize. destruct Hw as (_ & _ & _ & N1 & N2).
    rewrite (contains_skip (u "{cases}") P suffix) by (reflexivity || exact HP). rewrite (braced_out (u "cases") ltac:(vm_compute; intuition discriminate) N1 : contains (u "{cases}") suffix = false).
    rewrite (contains_skip (u "{array}") P suffix) by (reflexivity || exact HP). rewrite (braced_out (u "array") ltac:(vm_compute; intuition discriminate) N2 : contains (u "{array}") suffix = false).
    match goal with |- (if ?b then _ else _) = _ => destruct b end; [|reflexivity]. apply replace_absent. rewrite contains_skip by (reflexivity || exact HP). exact no_double. }
  rewrite normalize_step, Hp.
  destruct (re_search text_wrap_re (P ++ suffix)) as [st|] eqn:E1.
  { apply text_wrap_sound in E1. destruct E1 as (k & w1 & w2 & nl & _ & _ & _ & _ & E). rewrite Ec in E. injection E as -> _. discriminate Hc. }
  destruct (re_search set_builder_re (P ++ suffix)) as [st|] eqn:E2.
  { apply set_builder_sound in E2. destruct E2 as (a & nl & _ & E). rewrite Ec in E. injection E as -> _. discriminate Hc. }
  unfold norm_tail. cbv zeta. rewrite (tex_space_prefix P HP), tex_space.
  rewrite (search_none_lit 95 base_re) by (reflexivity || (apply lacks_app; [exact HP|reflexivity|apply L; reflexivity])).
  assert (contains (u "%") (P ++ suffix) = false) as ->.
  { change (u "%") with [37]. apply not_true_is_false. intro X. apply contains_single in X. revert X. apply lacks_app; [exact HP|reflexivity|apply L; reflexivity]. }
  rewrite (words_prefix P HP), words_kept. unfold str_to_time_list. rewrite Ht.
  rewrite (search_none_lit 58 time_re2) by (reflexivity || (apply lacks_app; [exact HP|reflexivity|apply L; reflexivity])).
  rewrite (units_prefix P HP), units_gone. reflexivity.
Qed.
(** *** Not a time *)
Fixpoint avoids (c : N) (r : regex) : bool :=
  match r with
  | RChr k => negb (cls_in k c)
  | RSeq x y | RAlt x y => avoids c x && avoids c y
  | RStar _ x | RGrp _ x => avoids c x
  | _ => true
  end.
Lemma avoids_sound c r : avoids c r = true -> forall v, den r v -> ~ In c v.
Proof.
  induction r; cbn [avoids den]; intros H v Hd; try (subst v; intros []).
  - destruct Hd as (d & -> & Hd). intros [->|[]]. rewrite Hd in H. discriminate.
  - apply andb_true_iff in H. destruct H. destruct Hd as (w1 & w2 & -> & H1 & H2). intro X. apply in_app_or in X. destruct X; [eapply IHr1|eapply IHr2]; eauto.
  - apply andb_true_iff in H. destruct H. destruct Hd; [eapply IHr1|eapply IHr2]; eauto.
  - induction Hd as [|x y Nx Hx Hy IHy]; [intros []|]. intro X. apply in_app_or in X. destruct X; [eapply IHr; eauto|auto].
  - eapply IHr; eauto.
Qed.
(** A time of day: am or pm, with spaces around, and nothing after *)
Lemma den_len p v : den (rci p) v -> List.length v = List.length p.
Proof.
  revert v. induction p as [|c p IH]; intros v H; cbn [rci den] in H; [subst v; reflexivity|]. destruct H as (w1 & w2 & -> & (d & -> & _) & H2). cbn [app List.length]. rewrite (IH _ H2). reflexivity.
Qed.
Lemma den_opt_dot v : den (ROpt (lit 46)) v -> v = [] \/ v = [46].
Proof. unfold ROpt. cbn [den]. intros [(c & -> & Hc)|H]; [right|left; exact H]. cbn [cls_in] in Hc. apply N.eqb_eq in Hc. subst c. reflexivity. Qed.
Lemma den_spaces v : den (RStarG (RChr CSpace)) v -> Forall (fun c => is_space c = true) v.
Proof.
  unfold RStarG. cbn [den]. intro H. induction H as [|x y _ Hx _ IH]; [constructor|]. destruct Hx as (c & -> & Hc). constructor; [exact Hc|exact IH].
Qed.
Lemma word_space c : word_char c -> is_space c = true -> c = 32.
Proof.
  assert (T : forallb (fun c => negb (is_space c)) (range_from 97 26 ++ range_from 65 26) = true) by (vm_compute; reflexivity). rewrite forallb_forall in T.
  intros H S. destruct H as [H|[H|H]]; [| |exact H]; exfalso; specialize (T c); rewrite S in T; (enough (false = true) by discriminate); apply T, in_or_app; [left|right]; apply in_range_from; cbn; lia.
Qed.
Lemma only_spaces v : Forall word_char v -> Forall (fun c => is_space c = true) v -> v = repeat 32 (List.length v).
Proof. induction v as [|c v IH]; intros F S; [reflexivity|]. inversion F; inversion S; subst. cbn [List.length repeat]. rewrite (word_space c), <- IH; auto. Qed.
End T.
Definition time_word (w : pystr) : Prop := exists k l a m, w = repeat 32 k ++ [a; m] ++ repeat 32 l /\ In a (u "apAP") /\ In m (u "mM").
Lemma no_time w b : unheeded w -> Forall ascii_digit b -> b <> [] \/ ~ time_word w -> no_meridiem (suffix w b) = true.
Proof.
  intros Hw Hb Hc. unfold no_meridiem. destruct (matches (rseq after_hour) _) as [|x l] eqn:E; [reflexivity|exfalso].
  assert (H : In x (matches (rseq after_hour) (MSt [] (suffix w b) []))) by (rewrite E; left; reflexivity). clear E. unfold after_hour in H.
  destruct Hw as (Nw & Fw & _). rewrite suffix_eq in H.
  apply in_rseq_cons in H. destruct H as (st1 & H1 & H). apply in_star_chr in H1. destruct H1 as (v0 & s1 & E1 & Hv0 & ->).
  assert (v0 = []) as -> by (destruct v0 as [|c v0]; [reflexivity|]; injection E1 as <- _; discriminate Hv0). cbn [app rev] in *. subst s1.
  apply in_rseq_cons in H. destruct H as (st2 & H2 & H). apply in_grp in H2. destruct H2 as (st3 & g & H3 & _ & ->).
  apply in_rseq_cons in H. destruct H as (st4 & H4 & H). apply in_rseq_nil in H. subst st4. apply in_eol in H4. destruct H4 as [Hend _].
  apply matches_sound in H3. destruct H3 as (v & [Hv _] & Hd & _). cbn [after] in Hv. destruct Hd as [Hd|Hd].
  2:{ cbn [rseq den ap_m] in Hd. destruct Hd as (w1 & w2 & -> & (c & -> & Hcc) & _). cbn [app] in Hv. injection Hv as <- _. discriminate Hcc. }
  cbn [rseq den] in Hd. destruct Hd as (w1 & w2 & -> & D1 & w3 & w4 & -> & D3 & w5 & w6 & -> & D5 & w7 & w8 & -> & D7 & w9 & w10 & -> & (c & -> & Hcc) & ->).
  cbn [cls_in] in Hcc. apply N.eqb_eq in Hcc. subst c. apply den_len in D1. rewrite app_nil_r in Hv.
  change (u "\text" ++ 123 :: w ++ 125 :: b) with (u "\text{" ++ (w ++ 125 :: b)) in Hv. rewrite <- !app_assoc in Hv.
  apply app_cut in Hv; [|rewrite D1; reflexivity]. destruct Hv as [_ Hv]. rewrite !app_assoc in Hv. cbn [app] in Hv. rewrite <- app_assoc in Hv. cbn [app] in Hv.
  rewrite Forall_forall in Fw. apply split_only in Hv.
  2:{ intro X. apply Fw in X. unfold word_char in X. lia. }
  2:{ intro X. rewrite Forall_forall in Hb. apply Hb in X. unfold ascii_digit in X. lia. }
  destruct Hv as [Ew Eb]. rewrite <- Eb in Hend. destruct Hc as [Hc|Hc].
  - destruct b as [|d b]; [congruence|]. inversion Hb; subst. unfold ascii_digit in *. destruct b; cbn in Hend; [apply N.eqb_eq in Hend; lia|discriminate Hend].
  - apply Hc. apply den_spaces in D3. apply den_spaces in D7. unfold ap_m in D5. cbn [rseq] in D5.
    destruct D5 as (y1 & y2 & -> & (a & -> & Ha) & y3 & y4 & -> & D8 & y5 & y6 & -> & (m & -> & Hm) & y7 & y8 & -> & D9 & ->).
    apply den_opt_dot in D8. apply den_opt_dot in D9. subst w.
    assert (y3 = []) as -> by (destruct D8 as [->| ->]; [reflexivity|]; specialize (Fw 46 ltac:(rewrite !in_app_iff; cbn; tauto)); unfold word_char in Fw; lia).
    assert (y7 = []) as -> by (destruct D9 as [->| ->]; [reflexivity|]; specialize (Fw 46 ltac:(rewrite !in_app_iff; cbn; tauto)); unfold word_char in Fw; lia).
    exists (List.length w3), (List.length w7), a, m. split; [|split].
    + rewrite <- (only_spaces w3), <- (only_spaces w7); try assumption; try (apply Forall_forall; intros c Hc'; apply Fw; rewrite !in_app_iff; tauto).
      rewrite <- !app_assoc. reflexivity.
    + cbn [cls_in ci] in Ha. rewrite !orb_true_iff, !N.eqb_eq in Ha. destruct Ha as [[Ha|Ha]|[Ha|Ha]]; subst a; vm_compute; tauto.
    + cbn [cls_in ci] in Hm. rewrite !orb_true_iff, !N.eqb_eq in Hm. destruct Hm as [Hm|Hm]; subst m; vm_compute; tauto.
Qed.

(** ** Integers *)
Theorem text_dropped ints z P w b : (- 2 ^ 53 <= z <= 2 ^ 53)%Z -> dec_Z z = P ++ b -> P <> [] -> unheeded w -> Forall ascii_digit b ->
  b <> [] \/ (100 <= Z.abs z)%Z \/ (z < 0)%Z \/ ~ time_word w ->
  string_normalize ints (P ++ in_text w ++ b) = NStr (ints (dec_Z z)).
Proof.
  intros Hz E Hne Hw Hb Hc. pose proof (dec_Z_alpha z) as HA. rewrite E, forallb_app in HA. apply andb_true_iff in HA. destruct HA as [HP _].
  change (in_text w ++ b) with (suffix w b). rewrite (text_tail w b Hw Hb P Hne HP); [rewrite <- E; apply int_circ, Hz|].
  assert (U : unsuffixed (suffix w b) = true) by reflexivity.
  assert (T : Forall ascii_digit P -> (3 <= List.length P)%nat \/ no_meridiem (suffix w b) = true -> re_search time_re1 (P ++ suffix w b) = None) by (intros F X; apply not_time1; assumption).
  destruct P as [|c P]; [congruence|]. destruct z as [|p|p]; cbn [dec_Z] in E.
  - change (dec_N 0) with [48] in E. injection E as <- E. destruct P; [|discriminate E]. cbn [app] in E. subst b. apply T; [repeat constructor; vm_compute; discriminate|]. right. apply no_time; auto. right. destruct Hc as [Hc|[Hc|[Hc|Hc]]]; [congruence|lia|lia|exact Hc].
  - assert (D : Forall ascii_digit (c :: P)) by (pose proof (dec_N_digits (Npos p)) as D; rewrite E in D; apply Forall_app in D; apply D).
    apply T; [exact D|]. destruct b as [|d b]; [|right; apply no_time; auto; left; discriminate]. rewrite app_nil_r in E.
    destruct Hc as [Hc|[Hc|[Hc|Hc]]]; [congruence| |lia|right; apply no_time; auto]. left. rewrite <- E.
    destruct (le_lt_dec 3 (length (dec_N (Npos p)))) as [|Hl]; [assumption|exfalso].
    pose proof (dec_value_bound (dec_N (Npos p)) (dec_N_digits _)) as B. rewrite (proj1 (proj2 (dec_N_spec (Npos p)))) in B.
    assert (10 ^ N.of_nat (length (dec_N (N.pos p))) <= 10 ^ 2) by (apply N.pow_le_mono_r; lia). change (10 ^ 2) with 100 in *. lia.
  - cbn [app] in E. injection E as <- _. apply not_time1_neg.
Qed.
Lemma text_accepted (W : World) n z P w b st : (- 2 ^ 53 <= z <= 2 ^ 53)%Z -> dec_Z z = P ++ b -> P <> [] -> unheeded w -> Forall ascii_digit b ->
  b <> [] \/ (100 <= Z.abs z)%Z \/ (z < 0)%Z \/ ~ time_word w ->
  is_equiv W (S n) (Some (P ++ in_text w ++ b)) (Some (dec_Z z)) st = (Ret true, st).
Proof.
  intros Hz E Hne Hw Hb Hc. apply (is_equiv_same_norm W n _ _ (int_str W (dec_Z z))); [apply text_dropped; assumption|apply normalize_int, Hz].
Qed.
