(** Formulas between dollar signs (/repo/math_evaluation/core/latex_normalize.py:240-381):
    the signs are dropped at lines 303-305, after the percent sign has been looked at (lines 292-301). *)
From Coq Require Import String List NArith ZArith QArith Bool Lia.
From Verif Require Import UnicodeTables PyStr PyStrTheory NumTheory Regex RegexTheory RegexFirst Float64 FloatTheory Constants
  Normalize NormTheory NormNum NormTime NormShape.
Import ListNotations.
Local Open Scope N_scope.

(** ** Specification: characters that mean nothing to the normaliser by themselves *)
Definition formula_cp : N -> bool := digits_and (u "+-*/^()=.,<>|[]xyznkabcefghjlopqsuvXYZABCDEFGHIJKLNOPQRSTUVW").
Definition numeral_cp : N -> bool := digits_and (u "+-*/^()=.xyz").
Definition between_dollars (s : pystr) : pystr := 36 :: s ++ [36].

Definition dollar_cp : N -> bool := digits_and (u "$+-*/^()=.,<>|[]xyznkabcefghjlopqsuvXYZABCDEFGHIJKLNOPQRSTUVW").
Definition percent_cp : N -> bool := digits_and (u "$%\+-*/^()=.xyz").
Lemma formula_inert : inert formula_cp = true.
Proof. vm_compute. reflexivity. Qed.
Lemma digits_and_sub l m s : forallb (mem_cp m) l = true -> forallb (digits_and l) s = true -> forallb (digits_and m) s = true.
Proof.
  intro H. apply forallb_impl. intros c Hc. unfold digits_and in *. apply orb_true_iff in Hc. apply orb_true_iff. destruct Hc as [Hc|Hc]; [left; exact Hc|right].
  rewrite forallb_forall in H. apply H. unfold mem_cp in Hc. apply existsb_exists in Hc. destruct Hc as (x & Hx & E). apply N.eqb_eq in E. subst x. exact Hx.
Qed.
Lemma formula_dollar s : forallb formula_cp s = true -> forallb dollar_cp s = true.
Proof. apply digits_and_sub. vm_compute. reflexivity. Qed.
Lemma numeral_formula s : forallb numeral_cp s = true -> forallb formula_cp s = true.
Proof. apply digits_and_sub. vm_compute. reflexivity. Qed.
Lemma numeral_percent s : forallb numeral_cp s = true -> forallb percent_cp s = true.
Proof. apply digits_and_sub. vm_compute. reflexivity. Qed.
Lemma formula_space s : forallb formula_cp s = true -> strip_sp s = s.
Proof. intro H. apply strip_sp_id. apply (alpha_not_in formula_cp); [reflexivity|exact H]. Qed.
Lemma strip_dollars s : strip_sp (between_dollars s) = between_dollars s.
Proof. apply strip_by_id; [reflexivity|]. unfold between_dollars. cbn [rev]. rewrite rev_app_distr. reflexivity. Qed.
(** the common part *)
Definition head_res : list regex := [text_wrap_re; set_builder_re; rs "\:"; rs "\,"; rs "\;"; rs "\!"; rs "{,}"; base_re].
Lemma head_dollar : forallb (needs (out_of dollar_cp)) head_res = true.
Proof. vm_compute. reflexivity. Qed.
Lemma head_percent : forallb (needs (out_of percent_cp)) head_res = true.
Proof. vm_compute. reflexivity. Qed.

Section Common.
Variable alpha : N -> bool.
Hypothesis Hh : forallb (needs (out_of alpha)) head_res = true.
Hypothesis Ho : foreign alpha (u "{cases}") = true.
Hypothesis Ho2 : foreign alpha (u "{array}") = true.
Variable ints : pystr -> pystr.
Lemma head_step s : strip_sp s = s -> contains [92; 92] s = false -> forallb alpha s = true ->
  string_normalize ints s =
    let expr1 := if contains (u "%") s then replace (u "%") [] (replace (u "\%") (u "%") s) else s in
    match (if contains (u "%") s then py_float expr1 else None) with
    | Some f => NSet [float_str (div100 f); float_str f]
    | None =>
      match str_to_time_list (rewrite_words expr1) with
      | NSet l => NSet l
      | NStr expr => norm_circ ints (del_units expr)
      end
    end.
Proof.
  intros Hsp Hb Hs. rewrite forallb_forall in Hh.
  assert (G : forall r, In r head_res -> needs (out_of alpha) r = true) by exact Hh.
  assert (Hp : prepared s = s).
  { unfold prepared. rewrite Hsp. unfold str_matrix_normalize. rewrite (alpha_contains alpha (u "{cases}")), (alpha_contains alpha (u "{array}")) by assumption.
    destruct (negb _); [|reflexivity]. apply replace_absent, Hb. }
  rewrite normalize_step, Hp.
  rewrite (alpha_search alpha text_wrap_re) by (exact Hs || (apply G; cbn; tauto)).
  rewrite (alpha_search alpha set_builder_re) by (exact Hs || (apply G; cbn; tauto)).
  unfold norm_tail.
  assert (del_tex_space s = s) as ->.
  { unfold del_tex_space, re_del. rewrite ?(fun r t => alpha_sub alpha r t s) by (exact Hs || (apply G; unfold head_res; repeat first [left; reflexivity|right])). reflexivity. }
  rewrite (alpha_search alpha base_re) by (exact Hs || (apply G; unfold head_res; repeat first [left; reflexivity|right])). reflexivity.
Qed.
End Common.

Lemma filter_none c s : ~ In c s -> filter (fun x => negb (c =? x)) s = s.
Proof.
  induction s as [|x s IH]; intro H; [reflexivity|]. cbn [filter]. destruct (N.eqb_spec c x) as [->|_]; [destruct H; left; reflexivity|]. cbn [negb]. f_equal. apply IH. intro X. apply H. right. exact X.
Qed.
Lemma undollar s : ~ In 36 s -> ~ In 92 s -> replace (u "$") [] (replace (u "\$") (u "$") (between_dollars s)) = s.
Proof.
  intros H1 H2. rewrite (replace_absent (u "\$")).
  - change (u "$") with [36]. rewrite replace_filter. unfold between_dollars. cbn [filter]. rewrite N.eqb_refl. cbn [negb]. rewrite filter_app, filter_none by exact H1. cbn [filter]. rewrite N.eqb_refl. cbn [negb]. apply app_nil_r.
  - destruct (contains (u "\$") (between_dollars s)) eqn:E; [|reflexivity]. apply contains_spec in E. destruct E as (a & b & E).
    assert (X : In 92 (between_dollars s)) by (rewrite E; apply in_or_app; right; left; reflexivity).
    destruct X as [X|X]; [discriminate|]. apply in_app_or in X. destruct X as [X|[X|[]]]; [contradiction|discriminate].
Qed.
Lemma words_dollars s : ~ In 36 s -> ~ In 92 s -> rewrite_words (between_dollars s) = rewrite_words s.
Proof.
  intros H1 H2. unfold rewrite_words. rewrite (undollar s H1 H2).
  rewrite (replace_absent (u "\$") _ s).
  - change (u "$") with [36]. rewrite replace_filter, filter_none by exact H1. reflexivity.
  - destruct (contains (u "\$") s) eqn:E; [|reflexivity]. apply contains_spec in E. destruct E as (a & b & E). destruct H2. rewrite E. apply in_or_app. right. left. reflexivity.
Qed.
Lemma formula_not c s : formula_cp c = false -> forallb formula_cp s = true -> ~ In c s.
Proof. apply alpha_not_in. Qed.
Lemma tail_formula ints s : forallb formula_cp s = true ->
  match str_to_time_list (rewrite_words s) with NSet l => NSet l | NStr e => norm_circ ints (del_units e) end = string_normalize ints s.
Proof.
  intro Hs. assert (Hb : contains [92; 92] s = false) by (apply (alpha_contains formula_cp); [reflexivity|exact Hs]).
  rewrite (inert_words formula_cp formula_inert s Hs), (inert_time formula_cp formula_inert s Hs), (inert_units formula_cp formula_inert s Hs).
  rewrite (inert_circ formula_cp formula_inert s Hs). symmetry. apply (inert_normalize formula_cp formula_inert s Hs Hb). apply formula_space, Hs.
Qed.
Theorem dollars_dropped ints s : forallb formula_cp s = true -> string_normalize ints (between_dollars s) = string_normalize ints s.
Proof.
  intro Hs. assert (A : forallb dollar_cp (between_dollars s) = true).
  { unfold between_dollars. cbn [forallb]. rewrite forallb_app. rewrite (formula_dollar s Hs). reflexivity. }
  rewrite (head_step dollar_cp head_dollar eq_refl eq_refl ints (between_dollars s) (strip_dollars s)).
  - rewrite (alpha_contains dollar_cp (u "%")) by (reflexivity || exact A). cbv zeta. rewrite words_dollars by (apply (formula_not _ s); [reflexivity|exact Hs]).
    apply tail_formula, Hs.
  - apply (alpha_contains dollar_cp); [reflexivity|exact A].
  - exact A.
Qed.

(** ** The percent sign inside *)
Lemma no_float s : forallb percent_cp s = true -> ~ In 95 s -> py_float (between_dollars s) = None.
Proof.
  intros Hs Hu. rewrite py_float_ends.
  - unfold read_signed, between_dollars, parse_unsigned.
    change (u "inf") with (105 :: u "nf"). change (u "infinity") with (105 :: u "nfinity"). change (u "nan") with (110 :: u "an").
    rewrite !lower_not by (reflexivity || discriminate). reflexivity.
  - unfold between_dollars. cbn [forallb]. rewrite forallb_app. rewrite !andb_true_iff. split; [reflexivity|]. split; [|reflexivity]. revert Hs. apply forallb_impl. apply (digits_and_cases _ (fun c => (c <? 128) = true)).
    + intros c H. unfold ascii_digit in H. apply N.ltb_lt. lia.
    + repeat (constructor; [vm_compute; reflexivity|]). constructor.
  - unfold between_dollars. intros [X|X]; [discriminate|]. apply in_app_or in X. destruct X as [X|[X|[]]]; [contradiction|discriminate].
  - reflexivity.
  - unfold between_dollars. cbn [rev]. rewrite rev_app_distr. reflexivity.
Qed.
Theorem percent_lost ints s p : p = u "%" \/ p = u "\%" -> forallb numeral_cp s = true ->
  string_normalize ints (between_dollars (s ++ p)) = string_normalize ints s.
Proof.
  intros Hp Hs.
  pose proof (numeral_formula s Hs) as Hf.
  pose proof (numeral_percent s Hs) as Hq.
  assert (A : forallb percent_cp (between_dollars (s ++ p)) = true).
  { unfold between_dollars. cbn [forallb]. rewrite !forallb_app, Hq. destruct Hp as [-> | ->]; reflexivity. }
  assert (D : forallb dollar_cp (36 :: s) = true).
  { cbn [forallb]. rewrite (formula_dollar s Hf). reflexivity. }
  assert (E : between_dollars (s ++ p) = (36 :: s) ++ p ++ [36]) by (unfold between_dollars; rewrite <- app_assoc; reflexivity).
  rewrite (head_step percent_cp head_percent eq_refl eq_refl ints (between_dollars (s ++ p)) (strip_dollars (s ++ p))).
  - assert (contains (u "%") (between_dollars (s ++ p)) = true) as ->.
    { apply contains_single. rewrite E. apply in_or_app. right. destruct Hp as [-> | ->]; vm_compute; tauto. }
    cbv zeta.
    assert (replace (u "%") [] (replace (u "\%") (u "%") (between_dollars (s ++ p))) = between_dollars s) as ->.
    { rewrite E. rewrite (replace_prefix dollar_cp) by (reflexivity || exact D). rewrite (replace_prefix dollar_cp) by (reflexivity || exact D).
      unfold between_dollars. destruct Hp as [-> | ->]; reflexivity. }
    rewrite no_float; [|exact Hq|apply (alpha_not_in percent_cp); [reflexivity|exact Hq]].
    rewrite words_dollars by (apply (formula_not _ s); [reflexivity|exact Hf]). apply tail_formula, Hf.
  - rewrite E, (contains_prefix dollar_cp) by (reflexivity || exact D). destruct Hp as [-> | ->]; reflexivity.
  - exact A.
Qed.
