(** The guard of latex_parser.py (/repo/math_evaluation/core/latex_parser.py:18-19, 77-97); nothing in /repo calls it. *)
From Coq Require Import String List NArith Bool Lia Arith.
From Verif Require Import UnicodeTables PyStr PyStrTheory NumTheory Regex RegexTheory.
Import ListNotations.
Local Open Scope N_scope.

(** latex_parser.py:77-81 [count_unknown_letters_in_expr] *)
Definition count_unknown_letters (expr : pystr) : nat :=
  let expr := replace (u "sqrt") [] expr in
  let expr := replace (u "frac") [] expr in
  List.length (nodup N.eq_dec (filter is_alpha expr)).
(** latex_parser.py:18-19 *)
Definition BAD_SUBSTRINGS : list pystr := [u "^{"; u "^("].
Definition dig : regex := RChr (CRange 48 57).                     (* [0-9] *)
Definition BAD_REGEXES : list regex := [rseq [lit 94; RPlus dig; lit 94]; rseq [lit 94; dig; RPlus dig]].
(** latex_parser.py:84-97 [should_allow_eval] *)
Definition should_allow_eval (expr : pystr) : bool :=
  if Nat.ltb 2 (count_unknown_letters expr) then false
  else if existsb (fun bad => contains bad expr) BAD_SUBSTRINGS then false
  else if existsb (fun bad => re_test bad expr) BAD_REGEXES then false
  else true.

(** ** Specification *)
(** at most two different letters, not counting those of "sqrt" and "frac" *)
Definition few_letters (e : pystr) : Prop :=
  forall l, NoDup l -> (forall c, In c l -> is_alpha c = true /\ In c (replace (u "frac") [] (replace (u "sqrt") [] e))) -> (List.length l <= 2)%nat.
(** what must not follow a caret: a brace, a parenthesis, two digits, or a digit and a caret *)
Definition hazard (b : pystr) : Prop :=
  (exists t, b = u "{" ++ t) \/ (exists t, b = u "(" ++ t) \/ (exists d c t, b = d :: c :: t /\ ascii_digit d /\ (ascii_digit c \/ c = 94)).

Lemma count_spec e : (count_unknown_letters e <= 2)%nat <-> few_letters e.
Proof.
  unfold count_unknown_letters, few_letters. cbv zeta. set (x := replace (u "frac") [] _). split.
  - intros H l D Hl. eapply Nat.le_trans; [|exact H]. apply NoDup_incl_length; [exact D|]. intros c Hc. apply nodup_In, filter_In. specialize (Hl c Hc). tauto.
  - intro H. apply H; [apply NoDup_nodup|]. intros c Hc. apply nodup_In, filter_In in Hc. tauto.
Qed.
Lemma search_from_iff r s : forall pre, (exists st, search_from r pre s = Some st) <-> exists a b st, s = a ++ b /\ In st (matches r (MSt (rev a ++ pre) b [])).
Proof.
  induction s as [|c s IH]; intro pre; cbn [search_from]; destruct (match_at r pre _) as [st|] eqn:E.
  - split; [intros _|eauto]. exists [], [], st. split; [reflexivity|]. apply hd_error_in, E.
  - split; [intros [st H]; discriminate H|]. intros (a & b & st & H & Hi). symmetry in H. apply app_eq_nil in H. destruct H as [-> ->]. apply match_at_none in E. cbn [rev app] in Hi. rewrite E in Hi. destruct Hi.
  - split; [intros _|eauto]. exists [], (c :: s), st. split; [reflexivity|]. apply hd_error_in, E.
  - rewrite IH. split.
    + intros (a & b & st & -> & H). exists (c :: a), b, st. split; [reflexivity|]. cbn [rev]. rewrite <- app_assoc. exact H.
    + intros (a & b & st & H & Hi). destruct a as [|x a].
      * cbn [app] in H. subst b. apply match_at_none in E. cbn [rev app] in Hi. rewrite E in Hi. destruct Hi.
      * injection H as <- ->. exists a, b, st. split; [reflexivity|]. cbn [rev] in Hi. rewrite <- app_assoc in Hi. exact Hi.
Qed.
Lemma re_test_iff r s : re_test r s = true <-> exists a b st, s = a ++ b /\ In st (matches r (MSt (rev a) b [])).
Proof.
  pose proof (search_from_iff r s []) as H. unfold re_test, re_search. transitivity (exists st, search_from r [] s = Some st).
  - destruct (search_from r [] s); split; [eauto|reflexivity|discriminate|intros [? X]; discriminate X].
  - rewrite H. split; intros (a & b & st & E & Hi); exists a, b, st; (split; [exact E|]); rewrite app_nil_r in *; exact Hi.
Qed.
Lemma dig_iff c : cls_in (CRange 48 57) c = true <-> ascii_digit c.
Proof. cbn [cls_in]. unfold ascii_digit. rewrite andb_true_iff, !N.leb_le. reflexivity. Qed.
Lemma lit_iff k c : cls_in (CLit k) c = true <-> c = k.
Proof. cbn [cls_in]. rewrite N.eqb_eq. split; congruence. Qed.
Lemma bad1_iff e : re_test (rseq [lit 94; RPlus dig; lit 94]) e = true <->
  exists a w t, e = a ++ 94 :: w ++ 94 :: t /\ w <> [] /\ Forall ascii_digit w.
Proof.
  rewrite re_test_iff. split.
  - intros (a & b & st & -> & H). apply in_rseq_cons in H. destruct H as (s1 & H1 & H). apply in_chr in H1. destruct H1 as (c & b1 & -> & Hc & ->). apply lit_iff in Hc. subst c.
    apply in_rseq_cons in H. destruct H as (s2 & H2 & H). apply in_plus_chr in H2. destruct H2 as (w & b2 & -> & Hw & Fw & ->).
    apply in_rseq_cons in H. destruct H as (s3 & H3 & _). apply in_chr in H3. destruct H3 as (c & b3 & -> & Hc & _). apply lit_iff in Hc. subst c.
    exists a, w, b3. split; [reflexivity|]. split; [exact Hw|]. apply Forall_forall. intros c Hc. apply dig_iff. rewrite forallb_forall in Fw. apply Fw, Hc.
  - intros (a & w & t & -> & Hw & F). exists a, (94 :: w ++ 94 :: t). eexists. split; [reflexivity|].
    apply in_rseq_cons. eexists. split; [apply in_chr; eexists; eexists; split; [reflexivity|split; [apply lit_iff; reflexivity|reflexivity]]|].
    apply in_rseq_cons. eexists. split; [apply in_plus_chr; exists w, (94 :: t); split; [reflexivity|split; [exact Hw|split; [|reflexivity]]]|].
    { apply forallb_forall. intros c Hc. apply dig_iff. rewrite Forall_forall in F. apply F, Hc. }
    apply in_rseq_cons. eexists. split; [apply in_chr; eexists; eexists; split; [reflexivity|split; [apply lit_iff; reflexivity|reflexivity]]|]. apply in_rseq_nil. reflexivity.
Qed.
Lemma bad2_iff e : re_test (rseq [lit 94; dig; RPlus dig]) e = true <->
  exists a d c t, e = a ++ 94 :: d :: c :: t /\ ascii_digit d /\ ascii_digit c.
Proof.
  rewrite re_test_iff. split.
  - intros (a & b & st & -> & H). apply in_rseq_cons in H. destruct H as (s1 & H1 & H). apply in_chr in H1. destruct H1 as (c & b1 & -> & Hc & ->). apply lit_iff in Hc. subst c.
    apply in_rseq_cons in H. destruct H as (s2 & H2 & H). apply in_chr in H2. destruct H2 as (d & b2 & -> & Hd & ->).
    apply in_rseq_cons in H. destruct H as (s3 & H3 & _). apply in_plus_chr in H3. destruct H3 as (w & b3 & -> & Hw & Fw & _). destruct w as [|c w]; [congruence|].
    cbn [forallb] in Fw. apply andb_true_iff in Fw. exists a, d, c, (w ++ b3). split; [reflexivity|]. split; apply dig_iff; [exact Hd|apply Fw].
  - intros (a & d & c & t & -> & Hd & Hc). exists a, (94 :: d :: c :: t). eexists. split; [reflexivity|].
    apply in_rseq_cons. eexists. split; [apply in_chr; eexists; eexists; split; [reflexivity|split; [apply lit_iff; reflexivity|reflexivity]]|].
    apply in_rseq_cons. eexists. split; [apply in_chr; eexists; eexists; split; [reflexivity|split; [apply dig_iff; exact Hd|reflexivity]]|].
    apply in_rseq_cons. eexists. split; [apply in_plus_chr; exists [c], t; split; [reflexivity|split; [discriminate|split; [|reflexivity]]]|apply in_rseq_nil; reflexivity].
    cbn [forallb]. rewrite (proj2 (dig_iff c) Hc). reflexivity.
Qed.
Theorem allow_iff e : should_allow_eval e = true <-> few_letters e /\ forall a b, e = a ++ u "^" ++ b -> ~ hazard b.
Proof.
  unfold should_allow_eval. rewrite <- count_spec. destruct (Nat.ltb_spec 2 (count_unknown_letters e)) as [L|L].
  { split; [discriminate|]. intros [H _]. lia. }
  assert (Q : (if existsb (fun bad => contains bad e) BAD_SUBSTRINGS then false else if existsb (fun bad => re_test bad e) BAD_REGEXES then false else true) = true <->
    contains (u "^{") e = false /\ contains (u "^(") e = false /\ re_test (rseq [lit 94; RPlus dig; lit 94]) e = false /\ re_test (rseq [lit 94; dig; RPlus dig]) e = false).
  { unfold BAD_SUBSTRINGS, BAD_REGEXES. cbn [existsb]. destruct (contains (u "^{") e), (contains (u "^(") e), (re_test (rseq [lit 94; RPlus dig; lit 94]) e), (re_test (rseq [lit 94; dig; RPlus dig]) e); cbn; intuition congruence. }
  rewrite Q. clear Q. split.
  - intros (C1 & C2 & R1 & R2). split; [exact L|]. intros a b E [[t ->]|[[t ->]|(d & c & t & -> & Hd & [Hc|Hc])]].
    + assert (X : contains (u "^{") e = true) by (apply contains_spec; exists a, t; exact E). congruence.
    + assert (X : contains (u "^(") e = true) by (apply contains_spec; exists a, t; exact E). congruence.
    + assert (X : re_test (rseq [lit 94; dig; RPlus dig]) e = true) by (apply bad2_iff; exists a, d, c, t; split; [exact E|tauto]). congruence.
    + subst c. assert (X : re_test (rseq [lit 94; RPlus dig; lit 94]) e = true) by (apply bad1_iff; exists a, [d], t; split; [exact E|split; [discriminate|repeat constructor; apply Hd]]). congruence.
  - intros [_ H]. repeat split; apply not_true_iff_false; intro X.
    + apply contains_spec in X. destruct X as (a & t & E). apply (H a (u "{" ++ t) E). left. eauto.
    + apply contains_spec in X. destruct X as (a & t & E). apply (H a (u "(" ++ t) E). right. left. eauto.
    + apply bad1_iff in X. destruct X as (a & w & t & E & Hw & F). apply (H a (w ++ 94 :: t) E). right. right. destruct w as [|d [|c w]]; [congruence| |].
      * exists d, 94, t. inversion F. auto.
      * exists d, c, (w ++ 94 :: t). inversion F as [|? ? Fd F']. inversion F'. auto.
    + apply bad2_iff in X. destruct X as (a & d & c & t & E & Hd & Hc). apply (H a (d :: c :: t) E). right. right. exists d, c, t. auto.
Qed.
