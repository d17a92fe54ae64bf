(** Lemmas about string normalisation. *)
From Coq Require Import String List NArith ZArith Bool Lia Arith.
From Verif Require Import UnicodeTables PyStr PyStrTheory NumTheory Regex RegexTheory Float64 FloatTheory Constants Normalize.
Import ListNotations.
Local Open Scope N_scope.

(** ** No pattern substituted by the normaliser matches the empty string
    (so the treatment of empty matches in [sub_go] is irrelevant). *)
Definition substituted : list regex :=
  [rs "\:"; rs "\,"; rs "\;"; rs "\!"; rs "{,}"; and_or_re; rs "\left("; rs "\left["; rs "\right)"; rs "\right]"; in_re;
   text_re; circ_re; circ_num_re; RSeq (lit 45) (RStarG sp); mixed_re1; mixed_re2; thousands_re; imag_re]
  ++ map (unit_text_re (u "text")) UNIT_LIST ++ map (unit_text_re (u "mbox")) UNIT_LIST
  ++ map unit_long_re UNIT_LONG_LIST ++ map unit_short_re UNIT_SHORT_LIST.
Lemma substituted_not_nullable : forallb (fun r => negb (nullable r)) substituted = true.
Proof. vm_compute. reflexivity. Qed.

Lemma replace_absent p q s : contains p s = false -> replace p q s = s.
Proof.
  unfold replace. induction s as [|c s IH]; intro H; [reflexivity|]. cbn [contains] in H. apply orb_false_iff in H. destruct H as [H1 H2].
  cbn [replace_go]. rewrite H1, IH by exact H2. reflexivity.
Qed.

(** ** Strings over an alphabet that avoids a needed character *)
Section Alphabet.
Variable alpha : N -> bool.

(** No character of the class is in the alphabet. *)
Fixpoint range_from (a : N) (n : nat) : list N := match n with O => [] | S n' => a :: range_from (a + 1) n' end.
Lemma in_range_from n : forall a c, a <= c < a + N.of_nat n -> In c (range_from a n).
Proof.
  induction n as [|n IH]; intros a c H; [lia|]. cbn [range_from]. destruct (N.eq_dec a c) as [->|]; [left; reflexivity|right]. apply IH. lia.
Qed.
Fixpoint out_of (k : cls) : bool :=
  match k with
  | CLit x => negb (alpha x)
  | CRange a b => forallb (fun c => negb (alpha c)) (range_from a (N.to_nat (b + 1 - a)))
  | COr a b => out_of a && out_of b
  | _ => false
  end.
Lemma out_of_sound k c : out_of k = true -> cls_in k c = true -> alpha c = false.
Proof.
  induction k as [x|a b| | | | | |a IHa b IHb|]; cbn [out_of cls_in]; intros H1 H2; try discriminate.
  - apply N.eqb_eq in H2. subst. apply negb_true_iff in H1. exact H1.
  - rewrite forallb_forall in H1. apply negb_true_iff, H1, in_range_from. apply andb_true_iff in H2. destruct H2 as [Ha Hb].
    apply N.leb_le in Ha. apply N.leb_le in Hb. lia.
  - apply andb_true_iff in H1. destruct H1 as [Ha Hb]. apply orb_true_iff in H2. destruct H2; auto.
Qed.
Lemma alpha_no_den r s w : needs out_of r = true -> forallb alpha s = true -> infix w s -> ~ den r w.
Proof.
  intros Hn Hs Hw Hd. destruct (needs_sound out_of (fun c => alpha c = false)) with (r := r) (w := w) as (c & Hc & Hf); auto.
  { intros k c. apply out_of_sound. }
  rewrite forallb_forall in Hs. rewrite (Hs c) in Hf; [discriminate|]. eapply infix_in; eauto.
Qed.
Lemma alpha_search r s : needs out_of r = true -> forallb alpha s = true -> re_search r s = None.
Proof. intros Hn Hs. apply search_none_den. intros w Hw. eapply alpha_no_den; eauto. Qed.
Lemma alpha_test r s : needs out_of r = true -> forallb alpha s = true -> re_test r s = false.
Proof. intros Hn Hs. unfold re_test. rewrite alpha_search; auto. Qed.
Lemma alpha_sub_fun r f s : needs out_of r = true -> forallb alpha s = true -> re_sub_fun r f s = s.
Proof. intros Hn Hs. apply sub_id_den. intros w Hw _. eapply alpha_no_den; eauto. Qed.
Lemma alpha_sub r t s : needs out_of r = true -> forallb alpha s = true -> re_sub r t s = s.
Proof. apply alpha_sub_fun. Qed.
Lemma alpha_del r s : needs out_of r = true -> forallb alpha s = true -> re_del r s = s.
Proof. apply alpha_sub. Qed.

Definition foreign (p : pystr) : bool := existsb (fun c => negb (alpha c)) p.
Lemma foreign_starts p s : foreign p = true -> forallb alpha s = true -> starts_with p s = false.
Proof.
  intros Hp Hs. destruct (starts_with p s) eqn:E; [|reflexivity]. apply starts_with_spec in E. destruct E as [t ->].
  rewrite forallb_app in Hs. apply andb_true_iff in Hs. destruct Hs as [Hs _]. rewrite forallb_forall in Hs.
  apply existsb_exists in Hp. destruct Hp as (c & Hc & Hn). rewrite (Hs c Hc) in Hn. discriminate.
Qed.
Lemma alpha_contains p s : foreign p = true -> forallb alpha s = true -> contains p s = false.
Proof.
  intros Hp. induction s as [|c s IH]; intro Hs; cbn [contains]; rewrite (foreign_starts p _ Hp Hs); [reflexivity|].
  cbn [orb]. apply IH. cbn in Hs. apply andb_true_iff in Hs. apply Hs.
Qed.
Lemma alpha_replace p q s : foreign p = true -> forallb alpha s = true -> replace p q s = s.
Proof.
  intros Hp. unfold replace. induction s as [|c s IH]; intro Hs; [reflexivity|]. cbn [replace_go]. rewrite (foreign_starts p _ Hp Hs).
  f_equal. apply IH. cbn in Hs. apply andb_true_iff in Hs. apply Hs.
Qed.

(** Everything the pipeline looks for before [further] needs a character outside the alphabet. *)
Definition inert : bool :=
  forallb foreign [u "{cases}"; u "{array}"; u "%"; u "\$"; u "$"; u "million"; u "billion"; u "trillion";
                   [12]; [8]; [7]; [9]; [13]]
  && forallb (needs out_of)
       [text_wrap_re; set_builder_re; rs "\:"; rs "\,"; rs "\;"; rs "\!"; rs "{,}"; base_re; and_or_re;
        rs "\left("; rs "\left["; rs "\right)"; rs "\right]"; in_re; time_re1; time_re2; text_re; circ_re]
  && forallb (fun x => needs out_of (unit_text_re (u "text") x) && needs out_of (unit_text_re (u "mbox") x)) UNIT_LIST
  && forallb (fun x => needs out_of (unit_long_re x)) UNIT_LONG_LIST
  && forallb (fun x => needs out_of (unit_short_re x)) UNIT_SHORT_LIST.

Lemma fold_id {A B} (f : A -> B -> A) l (x : A) : (forall y, In y l -> f x y = x) -> fold_left f l x = x.
Proof.
  induction l as [|y l IH]; intro H; [reflexivity|]. cbn [fold_left]. rewrite H by (left; reflexivity).
  apply IH. intros z Hz. apply H. right; exact Hz.
Qed.

Section Inert.
Hypothesis Hinert : inert = true.
Variable s : pystr.
Hypothesis Hs : forallb alpha s = true.
Hypothesis Hbs : contains [92; 92] s = false.
Let F : forall p, In p [u "{cases}"; u "{array}"; u "%"; u "\$"; u "$"; u "million"; u "billion"; u "trillion";
                   [12]; [8]; [7]; [9]; [13]] -> foreign p = true.
Proof. apply forallb_forall. unfold inert in Hinert. rewrite !andb_true_iff in Hinert. tauto. Qed.
Let G : forall r, In r [text_wrap_re; set_builder_re; rs "\:"; rs "\,"; rs "\;"; rs "\!"; rs "{,}"; base_re; and_or_re;
        rs "\left("; rs "\left["; rs "\right)"; rs "\right]"; in_re; time_re1; time_re2; text_re; circ_re] -> needs out_of r = true.
Proof. apply forallb_forall. unfold inert in Hinert. rewrite !andb_true_iff in Hinert. tauto. Qed.

Ltac mem := repeat first [left; reflexivity | right].

Lemma inert_matrix : str_matrix_normalize s = s.
Proof.
  unfold str_matrix_normalize.
  rewrite (alpha_contains (u "{cases}")), (alpha_contains (u "{array}")) by (exact Hs || (apply F; mem)).
  destruct (negb _); [|reflexivity]. apply replace_absent, Hbs.
Qed.
Lemma inert_tex_space : del_tex_space s = s.
Proof. unfold del_tex_space, re_del. rewrite ?(fun r t => alpha_sub r t s) by (exact Hs || (apply G; mem)). reflexivity. Qed.
Lemma inert_words : rewrite_words s = s.
Proof.
  unfold rewrite_words.
  rewrite (alpha_replace (u "\$")), (alpha_replace (u "$")) by (exact Hs || (apply F; mem)).
  rewrite (alpha_sub and_or_re) by (exact Hs || (apply G; mem)).
  rewrite (alpha_replace (u "million")), (alpha_replace (u "billion")), (alpha_replace (u "trillion")), (alpha_replace [12]),
    (alpha_replace [8]), (alpha_replace [7]), (alpha_replace [9]), (alpha_replace [13]) by (exact Hs || (apply F; mem)).
  rewrite ?(fun r t => alpha_sub r t s) by (exact Hs || (apply G; mem)). apply alpha_del; [apply G; mem|exact Hs].
Qed.
Lemma inert_time : str_to_time_list s = NStr s.
Proof. unfold str_to_time_list. rewrite ?(fun r => alpha_search r s) by (exact Hs || (apply G; mem)). reflexivity. Qed.
Lemma inert_units : del_units s = s.
Proof.
  unfold inert in Hinert. rewrite !andb_true_iff in Hinert. destruct Hinert as [[[_ H1] H2] H3].
  rewrite forallb_forall in H1, H2, H3.
  unfold del_units, del_text_units.
  rewrite (fold_id _ UNIT_LIST s).
  2:{ intros x Hx. apply H1 in Hx. apply andb_true_iff in Hx. rewrite ?(fun r => alpha_del r s) by tauto. reflexivity. }
  rewrite (alpha_del text_re) by (exact Hs || (apply G; mem)).
  unfold del_long_units. rewrite (fold_id _ UNIT_LONG_LIST s) by (intros x Hx; apply alpha_del; auto).
  unfold del_short_units. apply fold_id. intros x Hx; apply alpha_del; auto.
Qed.
Lemma inert_circ ints : norm_circ ints s = NStr (further ints s).
Proof. unfold norm_circ. rewrite alpha_test by (exact Hs || (apply G; mem)). reflexivity. Qed.
Lemma inert_tail ints : norm_tail ints s = NStr (further ints s).
Proof.
  unfold norm_tail. rewrite inert_tex_space. rewrite alpha_search by (exact Hs || (apply G; mem)).
  rewrite (alpha_contains (u "%")) by (exact Hs || (apply F; mem)).
  rewrite inert_words, inert_time, inert_units. apply inert_circ.
Qed.
Lemma inert_normalize ints : strip_sp s = s -> string_normalize ints s = NStr (further ints s).
Proof.
  intro Hsp. unfold string_normalize. destruct (2 * length s)%nat as [|n]; cbn [norm_fuel]; rewrite Hsp, inert_matrix;
  rewrite ?(fun r => alpha_search r s) by (exact Hs || (apply G; mem)); apply inert_tail.
Qed.
End Inert.
End Alphabet.

(** Alphabets *)
Definition mem_cp (l : pystr) (c : N) : bool := existsb (N.eqb c) l.
(** ASCII digits and further characters *)
Definition digits_and (l : pystr) (c : N) : bool := is_ascii_digit c || mem_cp l c.
Lemma digits_and_digit l ds : Forall ascii_digit ds -> forallb (digits_and l) ds = true.
Proof.
  intro F. apply forallb_forall. intros c Hc. rewrite Forall_forall in F. unfold digits_and.
  rewrite (proj1 (ascii_digit_b c) (F c Hc)). reflexivity.
Qed.

(** "- *" -> "-" does nothing without spaces *)
Lemma minus_sub_id s : ~ In 32 s -> re_sub (RSeq (lit 45) (RStarG sp)) [PLit (u "-")] s = s.
Proof.
  intro H. unfold re_sub, re_sub_fun. generalize (@nil N) as pre. intro pre. revert H.
  apply (sub_go_ind (RSeq (lit 45) (RStarG sp)) _ (fun _ s o => ~ In 32 s -> o = s)).
  - reflexivity.
  - intros _ c s0 o IH Hn. rewrite IH; [reflexivity|]. intro Hin. apply Hn. right; exact Hin.
  - intros _ w s0 o st Hw _ _ Hd _ IH Hn. rewrite IH by (intro Hin; apply Hn, in_or_app; right; exact Hin).
    f_equal. cbn [den] in Hd. destruct Hd as (w1 & w2 & -> & (c & -> & Hc) & Hst).
    cbn [cls_in] in Hc. apply N.eqb_eq in Hc. subst c. assert (w2 = []) as ->; [|reflexivity].
    destruct w2 as [|c w2]; [reflexivity|]. exfalso.
    inversion Hst as [|a b Hne Ha Hb E]; subst. destruct Ha as (x & -> & Hx). cbn [cls_in] in Hx. apply N.eqb_eq in Hx. subst x.
    injection E as <- _. apply Hn, in_or_app. left. cbn. auto.
Qed.
