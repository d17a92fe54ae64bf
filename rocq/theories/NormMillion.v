(** Numbers with million, billion, trillion (/repo/math_evaluation/core/latex_normalize.py:311-313). *)
From Coq Require Import String List NArith ZArith Bool Lia.
From Verif Require Import UnicodeTables PyStr PyStrTheory NumTheory Regex RegexTheory RegexFirst Float64 FloatTheory Constants
  Normalize NormTheory NormNum NormPct NormMixed NormTime NormShape NormUnits NormDollar NormAlg FloatText Spec Monad MonadTheory Eval EvalTheory EvalTheory2 NormIn NormCirc.
Import ListNotations.
Local Open Scope N_scope.

(** ** Specification *)
(** a word for a power of ten, and the exponent; with and without a space before it *)
Definition scales : list (pystr * pystr) :=
  [(u "million", u "6"); (u "billion", u "9"); (u "trillion", u "12"); (u " million", u "6"); (u " billion", u "9"); (u " trillion", u "12")].
(** [z] times a power of ten *)
Definition scaled (z : Z) (e : pystr) : pystr := dec_Z z ++ u "*10^" ++ e.

Definition word_cp : N -> bool := digits_and (u "-millonbtr ").
Definition scaled_cp : N -> bool := digits_and (u "-*^ s").
Lemma scales_inside : forallb (fun we => forallb word_cp (fst we)) scales = true.
Proof. vm_compute. reflexivity. Qed.
Definition spaced (w e : pystr) : pystr := (if starts_with [32] w then [32] else []) ++ u "*10^" ++ e.
Definition plain_or_s (p : pystr) : Prop := p = [] \/ p = u "s".
Lemma scales_steps : forallb (fun we => forallb (fun p => let w := fst we ++ p in
    str_eqb (del_tex_space w) w && str_eqb (del_units (rewrite_words w)) (spaced (fst we) (snd we ++ p)) && forallb scaled_cp (rewrite_words w)
    && forallb scaled_cp (spaced (fst we) (snd we ++ p)) && negb (mem_cp (spaced (fst we) (snd we ++ p)) 45)
    && str_eqb (lower (replace [32] [] (spaced (fst we) (snd we ++ p)))) (u "*10^" ++ snd we ++ p))
  [[]; u "s"]) scales = true.
Proof. vm_compute. reflexivity. Qed.
Lemma scaled_not c t : is_ascii_digit c = false -> mem_cp (u "-*^ s") c = false -> forallb scaled_cp t = true -> ~ In c t.
Proof. apply digits_and_not_in. Qed.
Lemma int_lower P : forallb int_cp P = true -> lower P = P.
Proof.
  induction P as [|c P IH]; [reflexivity|]. cbn [forallb]. intro H. apply andb_true_iff in H. destruct H as [Hc H]. change (lower ([c] ++ P) = [c] ++ P). rewrite lower_app, IH by exact H. f_equal.
  revert c Hc. apply digits_and_cases; [|repeat constructor]. intros c Hc. ten c Hc; reflexivity.
Qed.
Lemma star_bad : bad_cp 42.
Proof. apply marker_bad. vm_compute. tauto. Qed.
Section One.
Variable z : Z.
Variable t : pystr.
Hypothesis Ht : forallb scaled_cp t = true.
Hypothesis H42 : In 42 t.
Hypothesis H45 : ~ In 45 t.
Let P := dec_Z z.
Lemma one_cp : forallb scaled_cp (P ++ t) = true.
Proof. rewrite forallb_app, Ht, andb_true_r. generalize (dec_Z_alpha z). apply digits_and_sub. vm_compute. reflexivity. Qed.
Lemma one_dash : re_sub (RSeq (lit 45) (RStarG sp)) [PLit (u "-")] (P ++ t) = P ++ t.
Proof.
  unfold P. destruct (dec_split z) as (neg & D & -> & [F Ne] & _).
  assert (N45 : ~ In 45 (D ++ t)) by (intro X; apply in_app_or in X; destruct X as [X|X]; [|contradiction]; rewrite Forall_forall in F; specialize (F 45 X); destruct F as [F _]; revert F; vm_compute; congruence).
  assert (X : forall pre, sub_go dash_re (fun _ cs => expand [PLit (u "-")] cs) O pre (D ++ t) = D ++ t).
  { intro pre. apply sub_go_id_den. intros w Hw _ Hd. apply N45. apply (infix_in _ _ _ Hw), (needs_lit_sound 45 dash_re); [reflexivity|exact Hd]. }
  unfold re_sub, re_sub_fun. destruct neg; cbn [sign app]; [|apply X].
  assert (Y : forall cs, expand [PLit (u "-")] cs = [45]) by reflexivity.
  change (45 :: D ++ t) with ([45] ++ (D ++ t)). rewrite (sub_go_match dash_re _ [] [45] (D ++ t) (MSt [45] (D ++ t) [])).
  - cbn [rev app caps]. rewrite Y, X. reflexivity.
  - apply fm_match_at. eapply fm_seq; [apply fm_chr; reflexivity|]. apply fm_run_nil. destruct D as [|d D]; [congruence|]. cbn [app cls_in sp]. apply N.eqb_neq. intros <-. inversion F as [|? ? [G _]]. revert G. vm_compute. congruence.
  - reflexivity.
  - discriminate.
Qed.
Lemma one_no_float s : In 42 s -> py_float s = None.
Proof. apply bad_float, star_bad. Qed.
Lemma one_further ints : further ints (P ++ t) = P ++ lower (replace [32] [] t).
Proof.
  pose proof one_cp as A. assert (I42 : In 42 (P ++ t)) by (apply in_or_app; right; exact H42).
  assert (S : starts_with [123] (P ++ t) = false).
  { destruct (int_head P t (dec_Z_ne z) (dec_Z_alpha z)) as (c & r & -> & Hc). cbn [starts_with]. destruct (N.eqb_spec 123 c) as [<-|_]; [discriminate Hc|reflexivity]. }
  unfold further. rewrite S. cbn [andb]. cbv zeta. unfold norm_int. rewrite (one_no_float _ I42).
  change [bslash] with [92]. rewrite (contains_single_not 92) by (apply scaled_not; [reflexivity|reflexivity|exact A]).
  rewrite one_dash.
  assert (inject_mixed (P ++ t) = P ++ t) as ->.
  { unfold inject_mixed. assert (re_sub mixed_re1 [PGrp 1; PLit (u "+"); PGrp 2] (P ++ t) = P ++ t) as -> by (apply (sub_id_lit 47); [reflexivity|apply scaled_not; [reflexivity|reflexivity|exact A]]).
    apply (sub_id_lit 92); [reflexivity|apply scaled_not; [reflexivity|reflexivity|exact A]]. }
  rewrite (replace_prefix int_cp [32]) by (reflexivity || apply dec_Z_alpha). rewrite lower_app, (int_lower P (dec_Z_alpha z)).
  assert (J : In 42 (P ++ lower (replace [32] [] t))).
  { apply in_or_app. right. unfold lower. apply in_flat_map. exists 42. split; [|left; reflexivity]. rewrite replace_filter. apply filter_In. split; [exact H42|reflexivity]. }
  unfold str_is_int. rewrite one_no_float by (apply strip_commas_keeps; [discriminate|exact J]). reflexivity.
Qed.
End One.

Theorem scale_read ints z w e p : In (w, e) scales -> plain_or_s p -> string_normalize ints (dec_Z z ++ w ++ p) = NStr (scaled z (e ++ p)).
Proof.
  intros Hw Hp. pose proof scales_steps as T. rewrite forallb_forall in T. specialize (T _ Hw). rewrite forallb_forall in T.
  assert (Ip : In p [[]; u "s"]) by (destruct Hp as [-> | ->]; cbn; tauto). specialize (T p Ip). cbv zeta in T. cbn [fst snd] in T.
  rewrite !andb_true_iff, !str_eqb_eq in T. destruct T as [[[[[T1 T2] T3] T4] T5] T6].
  pose proof (dec_Z_alpha z) as I. set (P := dec_Z z) in *.
  assert (A : forallb (digits_and (u "-millonbtr s")) (P ++ w ++ p) = true).
  { rewrite !forallb_app. assert (forallb (digits_and (u "-millonbtr s")) P = true) as -> by (revert I; apply digits_and_sub; vm_compute; reflexivity).
    pose proof scales_inside as Q. rewrite forallb_forall in Q. specialize (Q _ Hw). cbn [fst] in Q.
    assert (forallb (digits_and (u "-millonbtr s")) w = true) as -> by (revert Q; apply digits_and_sub; vm_compute; reflexivity).
    destruct Hp as [-> | ->]; reflexivity. }
  set (al := digits_and (u "-millonbtr s")) in *.
  destruct (int_head P (w ++ p) (dec_Z_ne z) I) as (c & r & Ec & Hc).
  assert (Hpr : prepared (P ++ w ++ p) = P ++ w ++ p).
  { unfold prepared. assert (strip_sp (P ++ w ++ p) = P ++ w ++ p) as ->.
    { apply strip_by_id.
      - rewrite Ec. apply N.eqb_neq. intros <-. discriminate Hc.
      - rewrite !rev_app_distr. destruct Hp as [-> | ->]; [|reflexivity]. repeat (destruct Hw as [Hw|Hw]; [injection Hw as <- <-; reflexivity|]). destruct Hw. }
    unfold str_matrix_normalize. rewrite (alpha_contains al (u "{cases}")), (alpha_contains al (u "{array}")) by (reflexivity || exact A).
    match goal with |- (if ?b then _ else _) = _ => destruct b end; [|reflexivity]. apply replace_absent. apply (alpha_contains al); [reflexivity|exact A]. }
  rewrite normalize_step, Hpr.
  rewrite (alpha_search al text_wrap_re), (alpha_search al set_builder_re) by (exact A || (vm_compute; reflexivity)).
  unfold norm_tail. cbv zeta. rewrite (tex_space_prefix P I), T1. rewrite (alpha_search al base_re) by (exact A || (vm_compute; reflexivity)).
  rewrite (alpha_contains al (u "%")) by (reflexivity || exact A). rewrite (words_prefix P I). unfold str_to_time_list.
  assert (A2 : forallb scaled_cp (P ++ rewrite_words (w ++ p)) = true).
  { rewrite forallb_app, T3, andb_true_r. revert I. apply digits_and_sub. vm_compute. reflexivity. }
  rewrite (alpha_search scaled_cp time_re1), (alpha_search scaled_cp time_re2) by (exact A2 || (vm_compute; reflexivity)).
  rewrite (units_prefix P I), T2. unfold norm_circ.
  assert (A3 : forallb scaled_cp (P ++ spaced w (e ++ p)) = true).
  { rewrite forallb_app, T4, andb_true_r. revert I. apply digits_and_sub. vm_compute. reflexivity. }
  unfold re_test. rewrite (alpha_search scaled_cp circ_re) by (exact A3 || (vm_compute; reflexivity)).
  unfold P. rewrite one_further.
  - rewrite T6. reflexivity.
  - exact T4.
  - unfold spaced. apply in_or_app. right. left. reflexivity.
  - intro X. apply mem_cp_spec in X. rewrite X in T5. discriminate T5.
Qed.
Definition power_cp : N -> bool := digits_and (u "-*^").
Lemma power_inert : inert power_cp = true.
Proof. vm_compute. reflexivity. Qed.
Definition exponents : list pystr := [u "6"; u "9"; u "12"].
Lemma scaled_normal ints z e : In e exponents -> string_normalize ints (scaled z e) = NStr (scaled z e).
Proof.
  intro He.
  assert (F : forallb power_cp (u "*10^" ++ e) = true /\ forallb scaled_cp (u "*10^" ++ e) = true /\ ~ In 45 (u "*10^" ++ e) /\ lower (replace [32] [] (u "*10^" ++ e)) = u "*10^" ++ e).
  { destruct He as [<-|[<-|[<-|[]]]]; (split; [reflexivity|]); (split; [reflexivity|]); (split; [intro X; apply mem_cp_spec in X; discriminate X|vm_compute; reflexivity]). }
  destruct F as (F1 & F2 & F3 & F4).
  assert (A : forallb power_cp (scaled z e) = true).
  { unfold scaled. rewrite forallb_app, F1, andb_true_r. generalize (dec_Z_alpha z). apply digits_and_sub. vm_compute. reflexivity. }
  rewrite (inert_normalize power_cp power_inert _ A).
  - unfold scaled. rewrite one_further by (exact F2 || exact F3 || (left; reflexivity)). rewrite F4. reflexivity.
  - apply (alpha_contains power_cp); [reflexivity|exact A].
  - apply strip_sp_id. apply (alpha_not_in power_cp); [reflexivity|exact A].
Qed.
Lemma scale_exponents w e : In (w, e) scales -> In e exponents.
Proof. intro H. repeat (destruct H as [H|H]; [injection H as <- <-; vm_compute; tauto|]). destruct H. Qed.
Theorem scale_accepted W n z w w' e st : In (w, e) scales -> In (w', e) scales ->
  is_equiv W (S n) (Some (dec_Z z ++ w)) (Some (dec_Z z ++ w')) st = (Ret true, st) /\
  is_equiv W (S n) (Some (dec_Z z ++ w)) (Some (scaled z e)) st = (Ret true, st) /\
  is_equiv W (S n) (Some (scaled z e)) (Some (dec_Z z ++ w)) st = (Ret true, st).
Proof.
  intros H H'. assert (N : forall x, In (x, e) scales -> string_normalize (int_str W) (dec_Z z ++ x) = NStr (scaled z e)).
  { intros x Hx. pose proof (scale_read (int_str W) z x e [] Hx (or_introl eq_refl)) as X. rewrite !app_nil_r in X. exact X. }
  pose proof (scaled_normal (int_str W) z e (scale_exponents w e H)) as M.
  repeat split; apply (is_equiv_same_norm W n _ _ (scaled z e)); auto.
Qed.
Theorem scale_plain ints z w e : In (w, e) scales -> string_normalize ints (dec_Z z ++ w) = NStr (scaled z e).
Proof. intro H. pose proof (scale_read ints z w e [] H (or_introl eq_refl)) as X. rewrite !app_nil_r in X. exact X. Qed.
Theorem scale_plural ints z w e : In (w, e) scales -> string_normalize ints (dec_Z z ++ w ++ u "s") = NStr (scaled z e ++ u "s").
Proof. intro H. rewrite (scale_read ints z w e (u "s") H (or_intror eq_refl)). unfold scaled. rewrite <- !app_assoc. reflexivity. Qed.
