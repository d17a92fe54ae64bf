(** Two whole numbers joined by "and" or "or" in a text command (/repo/math_evaluation/core/latex_normalize.py:307-309). *)
From Coq Require Import String List NArith ZArith Bool Lia.
From Verif Require Import UnicodeTables PyStr PyStrTheory NumTheory Regex RegexTheory RegexFirst Float64 FloatTheory Constants
  Normalize NormTheory NormNum NormPct NormMixed NormTime NormShape NormUnits NormDollar NormAlg Arith Split SplitTheory Spec Monad MonadTheory Eval EvalTheory EvalTheory2 NormLeft NormIn NormCirc NormMillion NormOr.
Import ListNotations.
Local Open Scope N_scope.

(** ** Specification *)
(** an optional comma, spaces, the word in a text command with spaces around it, spaces *)
Record text_sep := TSep { with_comma : bool; gap1 : nat; gap2 : nat; is_or : bool; gap3 : nat; gap4 : nat }.
Definition word_of (b : bool) : pystr := if b then u "or" else u "and".
Definition command (w : text_sep) : pystr := u "text{" ++ spaces (gap2 w) ++ word_of (is_or w) ++ spaces (gap3 w) ++ u "}".
Definition front (w : text_sep) : pystr := (if with_comma w then u "," else []) ++ spaces (gap1 w).
Definition text_separator (w : text_sep) : pystr := front w ++ 92 :: command w ++ spaces (gap4 w).

Definition gap_cp (c : N) : bool := mem_cp (u ", ") c.
Lemma spaces_gap k : forallb gap_cp (spaces k) = true.
Proof. apply forallb_forall. intros c Hc. apply repeat_spec in Hc. subst. reflexivity. Qed.
Section Pair.
Variable A B : pystr.
Hypothesis HA : whole A.
Hypothesis HB : whole B.
Variable k : nat.
Let p : pystr := u " , " ++ spaces k.
Lemma p_gap : forallb gap_cp p = true.
Proof. unfold p. rewrite forallb_app, spaces_gap. reflexivity. Qed.
Lemma gap_comma s : forallb gap_cp s = true -> forallb comma_cp s = true.
Proof. apply forallb_impl. intros c H. unfold gap_cp, mem_cp in H. cbn in H. rewrite !orb_true_iff, !N.eqb_eq in H. destruct H as [H|[H|H]]; [subst; reflexivity|subst; reflexivity|discriminate H]. Qed.
Lemma gapped_cp : forallb comma_cp (A ++ p ++ B) = true.
Proof. rewrite !forallb_app, (whole_comma A HA), (whole_comma B HB), (gap_comma p p_gap). reflexivity. Qed.
Lemma gapped_not c : is_ascii_digit c = false -> mem_cp (u "-, ") c = false -> ~ In c (A ++ p ++ B).
Proof. intros H1 H2. apply (digits_and_not_in (u "-, ")); [exact H1|exact H2|exact gapped_cp]. Qed.
Lemma gapped_further ints : further ints (A ++ p ++ B) = (let x := A ++ u "," ++ B in if str_is_int x then ints x else x).
Proof.
  assert (S : starts_with [123] (A ++ p ++ B) = false).
  { destruct (int_head A (p ++ B) (whole_ne A HA) (whole_int A HA)) as (c & r & -> & Hc). cbn [starts_with]. destruct (N.eqb_spec 123 c) as [<-|_]; [discriminate Hc|reflexivity]. }
  assert (C : In 44 (A ++ p ++ B)) by (apply in_or_app; right; right; left; reflexivity).
  unfold further. rewrite S. cbn [andb]. cbv zeta. unfold norm_int. rewrite pair_no_float by exact C.
  change [bslash] with [92]. rewrite (contains_single_not 92) by (apply gapped_not; reflexivity).
  assert (re_sub (RSeq (lit 45) (RStarG sp)) [PLit (u "-")] (A ++ p ++ B) = A ++ p ++ B) as ->.
  { unfold re_sub, re_sub_fun. destruct (dash_number A (p ++ B) [] HA) as [pre E]. unfold dash_re in E. rewrite E. f_equal. clear E.
    rewrite (sub_go_prefix gap_cp) by (reflexivity || exact p_gap). f_equal.
    rewrite <- (app_nil_r B) at 1. destruct (dash_number B [] (rev p ++ pre) HB) as [pre' E]. unfold dash_re in E. rewrite E. apply app_nil_r. }
  assert (inject_mixed (A ++ p ++ B) = A ++ p ++ B) as ->.
  { unfold inject_mixed. assert (re_sub mixed_re1 [PGrp 1; PLit (u "+"); PGrp 2] (A ++ p ++ B) = A ++ p ++ B) as -> by (apply (sub_id_lit 47); [reflexivity|apply gapped_not; reflexivity]).
    apply (sub_id_lit 92); [reflexivity|apply gapped_not; reflexivity]. }
  assert (replace [32] [] (A ++ p ++ B) = A ++ u "," ++ B) as ->.
  { rewrite (replace_prefix int_cp [32]) by (reflexivity || apply whole_int, HA). f_equal.
    assert (X : replace [32] [] B = B) by (apply replace_single_not; apply (digits_and_not_in [45]); [reflexivity|reflexivity|apply whole_int, HB]).
    rewrite replace_filter in X |- *. unfold p. rewrite !filter_app, filter_spaces, X. reflexivity. }
  assert (lower (A ++ u "," ++ B) = A ++ u "," ++ B) as ->; [|reflexivity].
  rewrite !FloatText.lower_app, (int_lower A), (int_lower B) by (apply whole_int; assumption). reflexivity.
Qed.
End Pair.

(** ** The separator is matched *)
Lemma fm_spaces k pre c s cs : c <> 32 -> fm (RStarG sp) (MSt pre (spaces k ++ c :: s) cs) (MSt (rev (spaces k) ++ pre) (c :: s) cs).
Proof.
  intro Hc. apply fm_run.
  - apply forallb_forall. intros x Hx. apply repeat_spec in Hx. subst. reflexivity.
  - change ((32 =? c) = false). apply N.eqb_neq. congruence.
Qed.
Definition body (w : text_sep) : pystr := front w ++ 92 :: command w.
Lemma body_match w pre s : exists st, match_at and_or_re pre (body w ++ s) = Some st /\ after st = s.
Proof.
  destruct w as [b g1 g2 o g3 g4]. unfold body, front, command. cbn [with_comma gap1 gap2 is_or gap3 gap4].
  assert (G : forall pre, exists st, fm (rseq [RStarG sp; RGrp 1 (RAlt (RGrp 2 (rseq [rs "\text{"; RStarG sp; RGrp 3 andor; RStarG sp; lit 125])) (rseq [sp; RGrp 4 andor; sp]))])
              (MSt pre (spaces g1 ++ (u "\text{" ++ spaces g2 ++ word_of o ++ spaces g3 ++ u "}") ++ s) []) st /\ after st = s).
  { intro pre0. eexists. split.
    - eapply fm_seq; [apply (fm_spaces g1 pre0 92); discriminate|].
      eapply fm_seq; [|apply fm_eps].
      apply (fm_grp 1 _ _ (u "\text{" ++ spaces g2 ++ word_of o ++ spaces g3 ++ u "}") s). apply fm_alt_l.
      apply (fm_grp 2 _ _ (u "\text{" ++ spaces g2 ++ word_of o ++ spaces g3 ++ u "}") s). rewrite <- !app_assoc.
      eapply fm_seq; [apply (fm_rstr (u "\text{"))|].
      assert (X : exists c r, word_of o ++ spaces g3 ++ u "}" ++ s = c :: r /\ c <> 32) by (destruct o; do 2 eexists; (split; [reflexivity|discriminate])).
      destruct X as (c & r & X & Hc). eapply fm_seq; [rewrite X; apply fm_spaces, Hc|]. rewrite <- X.
      eapply fm_seq; [apply (fm_grp 3 andor _ (word_of o) (spaces g3 ++ u "}" ++ s) [] (rev (word_of o) ++ rev (spaces g2) ++ rev (u "\text{") ++ rev (spaces g1) ++ pre0) []); destruct o; reflexivity|].
      eapply fm_seq; [apply (fm_spaces g3 _ 125 s); discriminate|].
      eapply fm_seq; [apply fm_chr; reflexivity|apply fm_eps].
    - reflexivity. }
  destruct b.
  - destruct (G (44 :: pre)) as (st & H & E). exists st. split; [|exact E]. apply fm_match_at. unfold and_or_re. rewrite <- !app_assoc.
    eapply fm_seq; [apply fm_opt, fm_chr; reflexivity|exact H].
  - destruct (G pre) as (st & H & E). exists st. split; [|exact E]. apply fm_match_at. unfold and_or_re. rewrite <- !app_assoc.
    eapply fm_seq; [apply fm_opt_none; destruct g1; reflexivity|exact H].
Qed.

(** a string that starts with [c d] does not occur when the only [c] is followed by another character *)
Lemma contains_lone c d r x e y : ~ In c x -> ~ In c (e :: y) -> e <> d -> contains (c :: d :: r) (x ++ c :: e :: y) = false.
Proof.
  intros Hx Hy He. induction x as [|h x IH].
  - cbn [app]. rewrite contains_step.
    + apply not_true_is_false. intro X. apply Hy. revert X. clear. generalize (e :: y) as s. induction s as [|h s IH]; [discriminate|].
      rewrite contains_cons. cbn [starts_with]. destruct (N.eqb_spec c h) as [<-|_]; [left; reflexivity|]. intro X. right. apply IH, X.
    + cbn [starts_with]. destruct (N.eqb_spec d e) as [E|_]; [congruence|]. cbn [andb]. apply andb_false_r.
  - cbn [app]. rewrite contains_step; [apply IH; intro X; apply Hx; right; exact X|].
    cbn [starts_with]. destruct (N.eqb_spec c h) as [E|_]; [destruct Hx; left; congruence|reflexivity].
Qed.
Definition text_cp : N -> bool := digits_and (u "-, orandtex\{}").
Section Read.
Variable A B : pystr.
Hypothesis HA : whole A.
Hypothesis HB : whole B.
Variable w : text_sep.
Lemma spaces_text_cp k : forallb text_cp (spaces k) = true.
Proof. apply forallb_forall. intros c Hc. apply repeat_spec in Hc. subst. reflexivity. Qed.
Lemma text_alpha : forallb text_cp (A ++ text_separator w ++ B) = true.
Proof.
  assert (K : forall s, whole s -> forallb text_cp s = true) by (intros s Hs; apply whole_int in Hs; revert Hs; apply digits_and_sub; vm_compute; reflexivity).
  unfold text_separator, front, command.
  rewrite !forallb_app, (K A HA), (K B HB). cbn [forallb]. rewrite !forallb_app, !spaces_text_cp. destruct (with_comma w), (is_or w); reflexivity.
Qed.
Lemma not_whole c s : whole s -> int_cp c = false -> ~ In c s.
Proof. intros Hs Hc X. apply whole_int in Hs. rewrite forallb_forall in Hs. rewrite (Hs c X) in Hc. discriminate Hc. Qed.
Lemma not_spaces c k : c <> 32 -> ~ In c (spaces k).
Proof. intros Hc X. apply repeat_spec in X. contradiction. Qed.
Lemma one_backslash d r : d <> 116 -> contains (92 :: d :: r) (A ++ text_separator w ++ B) = false.
Proof.
  intro Hd.
  assert (X : A ++ text_separator w ++ B = (A ++ front w) ++ 92 :: 116 :: u "ext{" ++ spaces (gap2 w) ++ word_of (is_or w) ++ spaces (gap3 w) ++ u "}" ++ spaces (gap4 w) ++ B).
  { unfold text_separator, command. rewrite <- !app_assoc. cbn [app]. rewrite <- !app_assoc. reflexivity. }
  rewrite X. apply contains_lone; [| |congruence].
  - unfold front. rewrite !in_app_iff. intros [Y|[Y|Y]]; [revert Y; apply not_whole; [exact HA|reflexivity]| |revert Y; apply not_spaces; discriminate].
    destruct (with_comma w); [destruct Y as [Y|[]]; discriminate Y|destruct Y].
  - intros [Y|Y]; [discriminate Y|]. revert Y. rewrite !in_app_iff. intros [Y|[Y|[Y|[Y|[Y|[Y|Y]]]]]]; try (revert Y; apply not_spaces; discriminate).
    + cbn in Y; intuition discriminate.
    + destruct (is_or w); cbn in Y; intuition discriminate.
    + cbn in Y; intuition discriminate.
    + revert Y; apply not_whole; [exact HB|reflexivity].
Qed.
Lemma one_brace r : contains (123 :: 44 :: r) (A ++ text_separator w ++ B) = false.
Proof.
  unfold text_separator, command.
  assert (E : exists e y, (spaces (gap2 w) ++ word_of (is_or w) ++ spaces (gap3 w) ++ u "}") ++ spaces (gap4 w) ++ B = e :: y /\ e <> 44).
  { destruct (gap2 w) as [|g]; [destruct (is_or w)|]; do 2 eexists; (split; [reflexivity|discriminate]). }
  destruct E as (e & y & E & He).
  assert (X : A ++ (front w ++ 92 :: (u "text{" ++ spaces (gap2 w) ++ word_of (is_or w) ++ spaces (gap3 w) ++ u "}") ++ spaces (gap4 w)) ++ B
     = (A ++ front w ++ u "\text") ++ 123 :: e :: y).
  { rewrite <- E. rewrite <- !app_assoc. cbn [app]. rewrite <- !app_assoc. reflexivity. }
  rewrite X. apply contains_lone; [| |exact He].
  - unfold front. rewrite !in_app_iff. intros [Y|[[Y|Y]|Y]]; [revert Y; apply not_whole; [exact HA|reflexivity]| |revert Y; apply not_spaces; discriminate|cbn in Y; intuition discriminate].
    destruct (with_comma w); [destruct Y as [Y|[]]; discriminate Y|destruct Y].
  - rewrite <- E. rewrite !in_app_iff. intros [[Y|[Y|[Y|Y]]]|[Y|Y]]; try (revert Y; apply not_spaces; discriminate).
    + destruct (is_or w); cbn in Y; intuition discriminate.
    + cbn in Y; intuition discriminate.
    + revert Y; apply not_whole; [exact HB|reflexivity].
Qed.
Lemma text_separated : rewrite_words (A ++ text_separator w ++ B) = A ++ (u " , " ++ spaces (gap4 w)) ++ B.
Proof.
  pose proof text_alpha as J. pose proof (gapped_cp A B HA HB (gap4 w)) as H.
  assert (E2 : re_sub and_or_re [PLit (u " , ")] (A ++ text_separator w ++ B) = A ++ (u " , " ++ spaces (gap4 w)) ++ B).
  { unfold re_sub, re_sub_fun. rewrite (sub_go_prefix int_cp) by (reflexivity || apply whole_int, HA). f_equal.
    assert (X : text_separator w ++ B = body w ++ spaces (gap4 w) ++ B) by (unfold text_separator, body; rewrite <- !app_assoc; cbn [app]; rewrite <- !app_assoc; reflexivity).
    rewrite X. destruct (body_match w (rev A ++ []) (spaces (gap4 w) ++ B)) as (st & Hm & Ha).
    rewrite (sub_go_match and_or_re _ _ (body w) _ _ Hm Ha) by (unfold body; destruct (front w); discriminate).
    rewrite <- app_assoc. f_equal. apply sub_go_id_den. intros v Hv _. apply (alpha_no_den comma_cp) with (spaces (gap4 w) ++ B); [vm_compute; reflexivity| |exact Hv].
    rewrite forallb_app, (whole_comma B HB), (gap_comma _ (spaces_gap _)). reflexivity. }
  pose proof (inert_words comma_cp comma_inert _ H) as W. unfold rewrite_words in W |- *.
  rewrite (alpha_replace text_cp (u "\$")) by (reflexivity || exact J). rewrite (alpha_replace text_cp (u "$")) by (reflexivity || exact J). rewrite E2.
  rewrite (alpha_replace comma_cp (u "\$")), (alpha_replace comma_cp (u "$")) in W by (reflexivity || exact H).
  assert (re_sub and_or_re [PLit (u " , ")] (A ++ (u " , " ++ spaces (gap4 w)) ++ B) = A ++ (u " , " ++ spaces (gap4 w)) ++ B) as E3 by (apply (alpha_sub_fun comma_cp); [vm_compute; reflexivity|exact H]).
  rewrite E3 in W. exact W.
Qed.
Theorem text_separator_read ints : string_normalize ints (A ++ text_separator w ++ B) = string_normalize ints (A ++ u "," ++ B).
Proof.
  rewrite comma_read by assumption. pose proof text_alpha as J. pose proof (gapped_cp A B HA HB (gap4 w)) as H.
  assert (Hd : exists c r, A ++ text_separator w ++ B = c :: r /\ int_cp c = true) by (apply int_head; [apply whole_ne, HA|apply whole_int, HA]).
  assert (Hpr : prepared (A ++ text_separator w ++ B) = A ++ text_separator w ++ B).
  { unfold prepared. assert (strip_sp (A ++ text_separator w ++ B) = A ++ text_separator w ++ B) as ->.
    { apply strip_by_id.
      - destruct Hd as (c & r & -> & Hc). apply N.eqb_neq. intros <-. discriminate Hc.
      - rewrite !rev_app_distr, <- app_assoc. assert (R : forallb int_cp (rev B) = true) by (apply forallb_forall; intros c Hc; apply in_rev in Hc; pose proof (whole_int B HB) as Q; rewrite forallb_forall in Q; apply Q, Hc).
        destruct (int_head (rev B) (rev (text_separator w) ++ rev A)) as (c & r & -> & Hc); [intro E; apply (whole_ne B HB); apply (f_equal (@rev N)) in E; rewrite rev_involutive in E; exact E|exact R|].
        apply N.eqb_neq. intros <-. discriminate Hc. }
    unfold str_matrix_normalize. rewrite (alpha_contains text_cp (u "{cases}")), (alpha_contains text_cp (u "{array}")) by (reflexivity || exact J).
    match goal with |- (if ?b then _ else _) = _ => destruct b end; [|reflexivity]. apply replace_absent. apply one_backslash. discriminate. }
  rewrite normalize_step, Hpr.
  destruct (re_search text_wrap_re (A ++ text_separator w ++ B)) as [st|] eqn:E1.
  { apply text_wrap_sound in E1. destruct E1 as (k & w1 & w2 & nl & _ & _ & _ & _ & E). destruct Hd as (c & r & Ec & Hc). rewrite Ec in E. injection E as -> _. discriminate Hc. }
  destruct (re_search set_builder_re (A ++ text_separator w ++ B)) as [st|] eqn:E2.
  { apply set_builder_sound in E2. destruct E2 as (a & nl & _ & E). destruct Hd as (c & r & Ec & Hc). rewrite Ec in E. injection E as -> _. discriminate Hc. }
  unfold norm_tail. cbv zeta.
  assert (del_tex_space (A ++ text_separator w ++ B) = A ++ text_separator w ++ B) as ->.
  { unfold del_tex_space, rs. cbv zeta. rewrite (del_absent (u "\:")) by (discriminate || (apply one_backslash; discriminate)). rewrite (del_absent (u "\,")) by (discriminate || (apply one_backslash; discriminate)).
    rewrite (del_absent (u "\;")) by (discriminate || (apply one_backslash; discriminate)). rewrite (del_absent (u "\!")) by (discriminate || (apply one_backslash; discriminate)).
    rewrite sub_replace by discriminate. apply replace_absent, one_brace. }
  rewrite (alpha_search text_cp base_re) by (exact J || (vm_compute; reflexivity)).
  rewrite (alpha_contains text_cp (u "%")) by (reflexivity || exact J). rewrite text_separated.
  rewrite (inert_time comma_cp comma_inert _ H), (inert_units comma_cp comma_inert _ H), (inert_circ comma_cp comma_inert _ H).
  rewrite gapped_further by assumption. reflexivity.
Qed.
End Read.
Theorem text_separator_pair ints A B w : whole A -> whole B -> ~ has_thousands (A ++ u "," ++ B) ->
  string_normalize ints (A ++ text_separator w ++ B) = NStr (A ++ u "," ++ B).
Proof.
  intros HA HB Hn. rewrite (text_separator_read A B HA HB w ints), (comma_read A B HA HB). cbv zeta. unfold str_is_int. rewrite strip_commas_id by exact Hn.
  rewrite pair_no_float by (apply in_or_app; right; left; reflexivity). reflexivity.
Qed.
Theorem text_separator_accepted W n A B w w' st : whole A -> whole B -> In w' (u "," :: separators) \/ (exists v, w' = text_separator v) ->
  is_equiv W (S n) (Some (A ++ text_separator w ++ B)) (Some (A ++ w' ++ B)) st = (Ret true, st) /\
  is_equiv W (S n) (Some (A ++ w' ++ B)) (Some (A ++ text_separator w ++ B)) st = (Ret true, st).
Proof.
  intros HA HB Hw'. pose proof (comma_read A B HA HB (int_str W)) as C. pose proof (text_separator_read A B HA HB w (int_str W)) as N. rewrite C in N.
  assert (N' : string_normalize (int_str W) (A ++ w' ++ B) = NStr (let x := A ++ u "," ++ B in if str_is_int x then int_str W x else x)).
  { destruct Hw' as [[<-|Hw']|[v ->]]; [exact C| |].
    - rewrite (separator_read A B HA HB (int_str W) w' Hw'). exact C.
    - rewrite (text_separator_read A B HA HB v (int_str W)). exact C. }
  split; eapply is_equiv_same_norm; eassumption.
Qed.
Theorem text_separator_verdict W n A B w b st : whole A -> whole B ->
  ~ equal_up_to_padding is_space (A ++ text_separator w ++ B) b -> ~ equal_up_to_padding is_space (A ++ u "," ++ B) b ->
  is_equiv W (S n) (Some (A ++ text_separator w ++ B)) (Some b) st = is_equiv W (S n) (Some (A ++ u "," ++ B)) (Some b) st.
Proof. intros HA HB. apply same_norm_verdict, text_separator_read; assumption. Qed.
