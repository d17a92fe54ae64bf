(** Membership written before a set: x \in [1,2] (/repo/math_evaluation/core/latex_normalize.py:327-328). *)
From Coq Require Import String List NArith ZArith Bool Lia.
From Verif Require Import UnicodeTables PyStr PyStrTheory NumTheory Regex RegexTheory RegexFirst Float64 FloatTheory Constants
  Normalize NormTheory NormNum NormMixed NormTime NormShape NormDollar NormLeft Monad Eval EvalTheory.
Import ListNotations.
Local Open Scope N_scope.

(** ** Specification *)
Definition is_letter (c : N) : Prop := 97 <= c <= 122 \/ 65 <= c <= 90.
Definition set_cp : N -> bool := digits_and (u "+-*/^()=.,<>|[]xyz").
Definition membership (c : N) (j k : nat) (s : pystr) : pystr := c :: spaces j ++ u "\in" ++ spaces k ++ s.

(** ** Leading spaces *)
Definition spaced_cp : N -> bool := digits_and (u "+-*/^()=.,<>|[]xyz ").
Lemma spaced_inert : inert spaced_cp = true.
Proof. vm_compute. reflexivity. Qed.
Lemma set_spaced s : forallb set_cp s = true -> forallb spaced_cp s = true.
Proof. apply digits_and_sub. vm_compute. reflexivity. Qed.
Lemma spaces_spaced k : forallb spaced_cp (spaces k) = true.
Proof. apply forallb_forall. intros c Hc. apply repeat_spec in Hc. subst. reflexivity. Qed.
Lemma set_not c s : set_cp c = false -> forallb set_cp s = true -> ~ In c s.
Proof. apply alpha_not_in. Qed.

Lemma float_spaces k s : py_float (spaces k ++ s) = py_float s.
Proof.
  unfold py_float. rewrite map_app. assert (map to_ascii (spaces k) = spaces k) as -> by (induction k as [|k IH]; [reflexivity|]; cbn [spaces repeat map] in *; f_equal; exact IH).
  assert (strip (spaces k ++ map to_ascii s) = strip (map to_ascii s)) as ->; [|reflexivity].
  unfold strip, strip_by. f_equal. f_equal. f_equal. induction k as [|k IH]; [reflexivity|]. exact IH.
Qed.
Definition space_cp (c : N) : bool := 32 =? c.
Lemma spaces_space k : forallb space_cp (spaces k) = true.
Proof. apply forallb_forall. intros c Hc. apply repeat_spec in Hc. subst. reflexivity. Qed.
Definition dash_re : regex := RSeq (lit 45) (RStarG sp).
Lemma dash_id t pre : ~ In 32 t -> sub_go dash_re (fun _ cs => expand [PLit (u "-")] cs) O pre t = t.
Proof.
  revert t pre. assert (X : forall cs, expand [PLit (u "-")] cs = [45]) by reflexivity.
  induction t as [|c t IH]; intros pre H; [reflexivity|]. assert (Ht : ~ In 32 t) by (intro Y; apply H; right; exact Y).
  destruct (N.eqb_spec c 45) as [->|Hc].
  - change (45 :: t) with ([45] ++ t). rewrite (sub_go_match dash_re _ pre [45] t (MSt (45 :: pre) t [])).
    + cbn [rev app caps]. rewrite X, IH by exact Ht. reflexivity.
    + apply fm_match_at. eapply fm_seq; [apply fm_chr; reflexivity|]. apply fm_run_nil. destruct t as [|d t]; [exact I|]. cbn [cls_in sp]. apply N.eqb_neq. intros <-. apply Ht. left. reflexivity.
    + reflexivity.
    + discriminate.
  - rewrite sub_go_none; [f_equal; apply IH, Ht|]. apply match_at_none. apply nm_seq_l. apply nm_chr. cbn [cls_in]. apply N.eqb_neq. congruence.
Qed.
Lemma filter_spaces k : filter (fun x => negb (32 =? x)) (spaces k) = [].
Proof. induction k as [|k IH]; [reflexivity|]. exact IH. Qed.
Lemma further_spaces ints k s : forallb set_cp s = true -> further ints (spaces k ++ s) = further ints s.
Proof.
  intro Hs. pose proof (set_not 32 s eq_refl Hs) as N32. pose proof (set_not 92 s eq_refl Hs) as N92. pose proof (set_not 101 s eq_refl Hs) as N101. pose proof (set_not 123 s eq_refl Hs) as N123.
  assert (I : forall c, c <> 32 -> ~ In c s -> ~ In c (spaces k ++ s)) by (intros c Hc H X; apply in_app_or in X; destruct X as [X|X]; [apply repeat_spec in X; congruence|contradiction]).
  assert (B : forall t, ~ In 123 t -> starts_with [123] t = false).
  { intros t Ht. destruct t as [|c t]; [reflexivity|]. cbn [starts_with]. destruct (N.eqb_spec 123 c) as [<-|_]; [destruct Ht; left; reflexivity|reflexivity]. }
  unfold further. rewrite (B s N123), (B (spaces k ++ s)) by (apply I; [discriminate|exact N123]). cbn [andb]. cbv zeta.
  assert (E : norm_int (spaces k ++ s) = norm_int s \/ (norm_int (spaces k ++ s) = spaces k ++ s /\ norm_int s = s)).
  { unfold norm_int. rewrite float_spaces. destruct (py_float s) as [f|]; [|right; split; reflexivity]. destruct (float_is_int f); [|right; split; reflexivity].
    rewrite (contains_single_not 101 s N101 : contains (u "e") s = false). rewrite (contains_single_not 101 _ (I 101 ltac:(discriminate) N101) : contains (u "e") (spaces k ++ s) = false).
    destruct (int_round f); [left; reflexivity|right; split; reflexivity]. }
  destruct E as [-> |[-> ->]]; [reflexivity|].
  change [bslash] with [92]. rewrite (contains_single_not 92 s N92), (contains_single_not 92 (spaces k ++ s)) by (apply I; [discriminate|exact N92]).
  assert (D1 : re_sub (RSeq (lit 45) (RStarG sp)) [PLit (u "-")] s = s) by apply (dash_id s [] N32).
  assert (D2 : re_sub (RSeq (lit 45) (RStarG sp)) [PLit (u "-")] (spaces k ++ s) = spaces k ++ s).
  { unfold re_sub, re_sub_fun. rewrite (sub_go_prefix space_cp) by (reflexivity || apply spaces_space). f_equal. apply (dash_id s _ N32). }
  rewrite D1, D2.
  assert (M1 : inject_mixed s = s).
  { unfold inject_mixed. assert (re_sub mixed_re1 [PGrp 1; PLit (u "+"); PGrp 2] s = s) as -> by (apply (sub_id_lit 32); [reflexivity|exact N32]). apply (sub_id_lit 92); [reflexivity|exact N92]. }
  assert (M2 : inject_mixed (spaces k ++ s) = spaces k ++ s).
  { unfold inject_mixed. assert (re_sub mixed_re1 [PGrp 1; PLit (u "+"); PGrp 2] (spaces k ++ s) = spaces k ++ s) as ->.
    - unfold re_sub, re_sub_fun. generalize (@nil N) at 1. induction k as [|n IH]; intro pre.
      2:{ cbn [spaces repeat app]. rewrite sub_go_none by reflexivity. f_equal. apply IH. intros c Hc H X. apply in_app_or in X. destruct X as [X|X]; [apply repeat_spec in X; congruence|contradiction].
          unfold re_sub, re_sub_fun. rewrite (sub_go_prefix space_cp) by (reflexivity || apply spaces_space). f_equal. apply (dash_id s _ N32). }
      apply sub_go_id_den.
      intros w Hw _ Hd. apply N32. apply (infix_in _ _ _ Hw), (needs_lit_sound 32 mixed_re1); [reflexivity|exact Hd].
    - apply (sub_id_lit 92); [reflexivity|]. apply I; [discriminate|exact N92]. }
  rewrite M1, M2. assert (replace [32] [] (spaces k ++ s) = replace [32] [] s) as ->; [|reflexivity].
  rewrite !replace_filter, filter_app. assert (filter (fun x => negb (32 =? x)) (spaces k) = []) as ->; [apply filter_spaces|reflexivity].
Qed.

(** ** The deletion *)
Lemma letter_cls c : is_letter c -> exists K, letter = RChr K /\ cls_in K c = true.
Proof.
  intro H. eexists. split; [reflexivity|]. cbn [cls_in]. destruct H; rewrite !orb_true_iff, !andb_true_iff, !N.leb_le; lia.
Qed.
Lemma in_deleted c j k s : is_letter c -> ~ In 92 s -> re_del in_re (membership c j k s) = spaces k ++ s.
Proof.
  intros Hc Hs. unfold membership. set (rest := spaces k ++ s).
  assert (H92 : ~ In 92 rest) by (intro X; apply in_app_or in X; destruct X as [X|X]; [apply repeat_spec in X; discriminate|contradiction]).
  assert (E : c :: spaces j ++ u "\in" ++ rest = (c :: spaces j ++ u "\in") ++ rest) by (cbn [app]; rewrite <- app_assoc; reflexivity).
  unfold re_del, re_sub, re_sub_fun. rewrite E.
  rewrite (sub_go_match in_re _ [] (c :: spaces j ++ u "\in") rest (MSt (rev (u "\in") ++ rev (spaces j) ++ [c]) rest [])).
  - cbn [expand flat_map app]. apply sub_go_id_den. intros w Hw _ Hd. apply H92. apply (infix_in _ _ _ Hw), (needs_lit_sound 92 in_re); [reflexivity|exact Hd].
  - rewrite <- E. apply fm_match_at. unfold in_re. cbn [rseq].
    eapply fm_seq.
    { destruct (letter_cls c Hc) as (K & EK & HK). rewrite EK. apply (fm_plus K [] [c] (spaces j ++ u "\in" ++ rest) []); [discriminate|cbn [forallb]; rewrite HK; reflexivity|].
      injection EK as <-. destruct j as [|j]; reflexivity. }
    eapply fm_seq.
    { apply (fm_run CSpace [c] (spaces j) (u "\in" ++ rest) []); [|reflexivity]. apply forallb_forall. intros x Hx. apply repeat_spec in Hx. subst. reflexivity. }
    eapply fm_seq; [apply (fm_rstr (u "\in") (rev (spaces j) ++ [c]) rest [])|apply fm_eps].
  - reflexivity.
  - discriminate.
Qed.

(** ** The whole *)
Definition in_cp (c : N) : N -> bool := digits_and (c :: u "+-*/^()=.,<>|[]xyz \in").
Definition in_res : list regex := [text_wrap_re; set_builder_re; rs "\:"; rs "\;"; rs "\!"; rs "{,}"; base_re; and_or_re; rs "\left("; rs "\left["; rs "\right)"; rs "\right]"].
Definition in_words : list pystr := [u "{cases}"; u "{array}"; u "%"; u "\$"; u "$"; u "million"; u "billion"; u "trillion"; [12]; [8]; [7]; [9]; [13]].
Definition all_letters : list N := u "abcdefghijklmnopqrstuvwxyzABCDEFGHIJKLMNOPQRSTUVWXYZ".
Lemma letter_in c : is_letter c -> In c all_letters.
Proof.
  intro H. destruct H as [H|H].
  - assert (X : exists n, (n < 26)%nat /\ c = 97 + N.of_nat n) by (exists (N.to_nat (c - 97)); lia). destruct X as (n & Hn & ->).
    do 26 (destruct n as [|n]; [vm_compute; tauto|]). lia.
  - assert (X : exists n, (n < 26)%nat /\ c = 65 + N.of_nat n) by (exists (N.to_nat (c - 65)); lia). destruct X as (n & Hn & ->).
    do 26 (destruct n as [|n]; [vm_compute; tauto|]). lia.
Qed.
Lemma in_table : forallb (fun c => forallb (needs (out_of (in_cp c))) in_res && forallb (foreign (in_cp c)) in_words) all_letters = true.
Proof. vm_compute. reflexivity. Qed.

Section Whole.
Variables (c : N) (j k : nat) (s : pystr).
Hypothesis Hc : is_letter c.
Hypothesis Hs : forallb set_cp s = true.
Hypothesis Hne : s <> [].
Let m := membership c j k s.
Lemma m_alpha : forallb (in_cp c) m = true.
Proof.
  assert (S : forall i, forallb (in_cp c) (spaces i) = true).
  { intro i. apply forallb_forall. intros x Hx. apply repeat_spec in Hx. subst. unfold in_cp, digits_and, mem_cp. cbn [existsb]. rewrite !orb_true_iff. right. right. vm_compute. reflexivity. }
  assert (L : forall t, forallb (digits_and (u "+-*/^()=.,<>|[]xyz \in")) t = true -> forallb (in_cp c) t = true).
  { intros t. apply forallb_impl. intros x Hx. unfold in_cp, digits_and in *. apply orb_true_iff in Hx. apply orb_true_iff. destruct Hx as [Hx|Hx]; [left; exact Hx|right]. unfold mem_cp in *. cbn [existsb]. rewrite Hx. apply orb_true_r. }
  unfold m, membership. cbn [forallb]. rewrite !forallb_app, !S. rewrite (L (u "\in")) by reflexivity. rewrite (L s).
  - rewrite !andb_true_r. unfold in_cp, digits_and, mem_cp. cbn [existsb]. rewrite N.eqb_refl. apply orb_true_r.
  - revert Hs. apply digits_and_sub. vm_compute. reflexivity.
Qed.
Lemma m_table : (forall r, In r in_res -> needs (out_of (in_cp c)) r = true) /\ (forall p, In p in_words -> foreign (in_cp c) p = true).
Proof.
  pose proof in_table as T. rewrite forallb_forall in T. specialize (T c (letter_in c Hc)). apply andb_true_iff in T. destruct T as [T1 T2]. rewrite forallb_forall in T1, T2. auto.
Qed.
Lemma c_not x : ~ is_letter x -> c <> x.
Proof. intros H ->. exact (H Hc). Qed.
Lemma m_command d : d <> 105 -> contains [92; d] m = false.
Proof.
  intro Hd. pose proof (set_not 92 s eq_refl Hs) as N92. unfold m, membership.
  assert (N : forall x t, x <> 92 -> starts_with [92; d] (x :: t) = false) by (intros x t H; cbn [starts_with]; destruct (N.eqb_spec 92 x); [congruence|reflexivity]).
  assert (P : forall w t, ~ In 92 w -> contains [92; d] (w ++ t) = contains [92; d] t).
  { induction w as [|x w IH]; intros t Hw; [reflexivity|]. cbn [app]. rewrite contains_step by (apply N; intros ->; apply Hw; left; reflexivity). apply IH. intro X. apply Hw. right. exact X. }
  assert (S : forall i, ~ In 92 (spaces i)) by (intros i X; apply repeat_spec in X; discriminate).
  change (c :: spaces j ++ u "\in" ++ spaces k ++ s) with ([c] ++ spaces j ++ u "\in" ++ spaces k ++ s).
  rewrite P by (intros [X|[]]; revert X; apply c_not; unfold is_letter; lia). rewrite P by apply S.
  change (u "\in" ++ spaces k ++ s) with (92 :: 105 :: [110] ++ spaces k ++ s). rewrite contains_step by (cbn [starts_with]; destruct (N.eqb_spec d 105); [congruence|reflexivity]).
  rewrite contains_step by (apply N; discriminate). rewrite P by (intros [X|[]]; discriminate). rewrite P by apply S.
  rewrite <- (app_nil_r s), P by exact N92. reflexivity.
Qed.
Lemma m_strip : strip_sp m = m.
Proof.
  apply strip_by_id.
  - unfold m, membership. apply N.eqb_neq. intro E. symmetry in E. revert E. apply c_not. unfold is_letter. lia.
  - unfold m, membership. cbn [rev]. rewrite !rev_app_distr. pose proof (set_not 32 s eq_refl Hs) as N32. destruct (rev s) as [|x t] eqn:E; [destruct Hne; rewrite <- (rev_involutive s), E; reflexivity|].
    cbn [app]. apply N.eqb_neq. intros <-. apply N32, in_rev. rewrite E. left. reflexivity.
Qed.
Theorem membership_dropped ints : string_normalize ints m = string_normalize ints s.
Proof.
  pose proof m_alpha as A. destruct m_table as [G F].
  assert (M1 : forall r, In r in_res -> re_search r m = None) by (intros r Hr; apply (alpha_search (in_cp c)); [apply G, Hr|exact A]).
  assert (Hp : prepared m = m).
  { unfold prepared. rewrite m_strip. unfold str_matrix_normalize. rewrite (alpha_contains (in_cp c) (u "{cases}")), (alpha_contains (in_cp c) (u "{array}")) by (exact A || (apply F; unfold in_words; repeat first [left; reflexivity|right])).
    destruct (negb _); [|reflexivity]. apply replace_absent, m_command. discriminate. }
  rewrite normalize_step, Hp. rewrite (M1 text_wrap_re) by (left; reflexivity). rewrite (M1 set_builder_re) by (right; left; reflexivity).
  unfold norm_tail.
  assert (del_tex_space m = m) as ->.
  { unfold del_tex_space. rewrite (alpha_del (in_cp c) (rs "\:")) by (exact A || (apply G; unfold in_res; repeat first [left; reflexivity|right])).
    rewrite (del_absent (u "\,") m : _ -> _ -> re_del (rs "\,") m = m) by (discriminate || (apply m_command; discriminate)).
    rewrite (alpha_del (in_cp c) (rs "\;")), (alpha_del (in_cp c) (rs "\!")) by (exact A || (apply G; unfold in_res; repeat first [left; reflexivity|right])).
    apply alpha_sub with (alpha := in_cp c); [apply G; unfold in_res; repeat first [left; reflexivity|right]|exact A]. }
  rewrite (M1 base_re) by (unfold in_res; repeat first [left; reflexivity|right]).
  rewrite (alpha_contains (in_cp c) (u "%")) by (exact A || (apply F; unfold in_words; repeat first [left; reflexivity|right])). cbv zeta.
  assert (rewrite_words m = spaces k ++ s) as ->.
  { unfold rewrite_words. rewrite (alpha_replace (in_cp c) (u "\$")), (alpha_replace (in_cp c) (u "$")) by (exact A || (apply F; unfold in_words; repeat first [left; reflexivity|right])).
    rewrite (alpha_sub (in_cp c) and_or_re) by (exact A || (apply G; unfold in_res; repeat first [left; reflexivity|right])).
    rewrite (alpha_replace (in_cp c) (u "million")), (alpha_replace (in_cp c) (u "billion")), (alpha_replace (in_cp c) (u "trillion")), (alpha_replace (in_cp c) [12]),
      (alpha_replace (in_cp c) [8]), (alpha_replace (in_cp c) [7]), (alpha_replace (in_cp c) [9]), (alpha_replace (in_cp c) [13]) by (exact A || (apply F; unfold in_words; repeat first [left; reflexivity|right])).
    rewrite ?(fun r t => alpha_sub (in_cp c) r t m) by (exact A || (apply G; unfold in_res; repeat first [left; reflexivity|right])).
    apply in_deleted; [exact Hc|apply set_not; [reflexivity|exact Hs]]. }
  assert (Q : forallb spaced_cp (spaces k ++ s) = true) by (rewrite forallb_app, spaces_spaced, (set_spaced s Hs); reflexivity).
  rewrite (inert_time spaced_cp spaced_inert _ Q), (inert_units spaced_cp spaced_inert _ Q), (inert_circ spaced_cp spaced_inert _ Q).
  rewrite further_spaces by exact Hs. symmetry. apply (inert_normalize spaced_cp spaced_inert s (set_spaced s Hs)).
  - apply (alpha_contains spaced_cp); [reflexivity|apply set_spaced, Hs].
  - apply strip_sp_id, set_not; [reflexivity|exact Hs].
Qed.
End Whole.

Theorem membership_accepted (W : World) n c d i j k l s st : is_letter c -> is_letter d -> forallb set_cp s = true -> s <> [] ->
  is_equiv W (S n) (Some (membership c i j s)) (Some (membership d k l s)) st = (Ret true, st) /\
  is_equiv W (S n) (Some s) (Some (membership d k l s)) st = (Ret true, st).
Proof.
  intros Hc Hd Hs Hn. assert (N : string_normalize (int_str W) s = NStr (further (int_str W) s)).
  { apply (inert_normalize spaced_cp spaced_inert s (set_spaced s Hs)).
    - apply (alpha_contains spaced_cp); [reflexivity|apply set_spaced, Hs].
    - apply strip_sp_id, set_not; [reflexivity|exact Hs]. }
  split; apply (is_equiv_same_norm W n _ _ (further (int_str W) s)); rewrite ?membership_dropped by assumption; exact N.
Qed.
