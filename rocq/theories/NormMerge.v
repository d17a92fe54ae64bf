(** Two integers separated by spaces are read as one. *)
From Coq Require Import String List NArith ZArith Bool Lia Arith.
From Verif Require Import UnicodeTables PyStr PyStrTheory NumTheory Regex RegexTheory Float64 FloatTheory Constants Normalize NormTheory RegexFirst NormNum NormPct NormMixed.
From Verif Require Import Monad Split Eval EvalTheory.
Import ListNotations.
Local Open Scope N_scope.
Local Arguments N.eqb : simpl never.

Section Merge.
Variable ints : pystr -> pystr.
Variable z : Z.
Variable neg : bool.
Variables A B : pystr.
Variable k : nat.
Hypothesis Hz : (- 2 ^ 53 <= z <= 2 ^ 53)%Z.
Hypothesis FA : Forall ascii_digit A.
Hypothesis FB : Forall ascii_digit B.
Hypothesis HA : A <> [].
Hypothesis HB : B <> [].
Hypothesis Hk : k <> O.
Hypothesis E : dec_Z z = sign neg ++ A ++ B.
Definition gap : pystr := sign neg ++ A ++ spaces k ++ B.

Lemma spaces_alpha l : mem_cp l 32 = true -> forallb (digits_and l) (spaces k) = true.
Proof. intro H. apply forallb_forall. intros c Hc. apply repeat_spec in Hc. subst. unfold digits_and. rewrite H. apply orb_true_r. Qed.
Lemma gap_alpha l : mem_cp l 45 = true -> mem_cp l 32 = true -> forallb (digits_and l) gap = true.
Proof.
  intros H H2. unfold gap. rewrite !forallb_app, (digits_and_digit l A FA), (digits_and_digit l B FB), (spaces_alpha l H2). destruct neg; cbn [sign forallb]; [|reflexivity].
  unfold digits_and. rewrite H. rewrite orb_true_r. reflexivity.
Qed.
Lemma gap_last p : match rev (p ++ B) with [] => True | c :: _ => ascii_digit c end.
Proof.
  rewrite rev_app_distr. destruct (rev B) as [|c r] eqn:Er; [apply (f_equal (@rev N)) in Er; rewrite rev_involutive in Er; contradiction|].
  cbn [app]. rewrite Forall_forall in FB. apply FB, in_rev. rewrite Er. left; reflexivity.
Qed.
Lemma digits_keep D s : Forall ascii_digit D -> replace [32] [] (D ++ s) = D ++ replace [32] [] s.
Proof. intro F. apply (replace_prefix (digits_and [])); [reflexivity|]. apply digits_and_digit, F. Qed.
Lemma gap_closed : replace [32] [] gap = sign neg ++ A ++ B.
Proof.
  unfold gap. assert (G : replace [32] [] (A ++ spaces k ++ B) = A ++ B).
  { rewrite digits_keep by exact FA. f_equal. assert (R : forall n, replace [32] [] (repeat 32 n ++ B) = B); [|apply R].
    induction n as [|n IH]; [|exact IH]. cbn [repeat app]. rewrite <- (app_nil_r B) at 1. rewrite digits_keep by exact FB. apply app_nil_r. }
  destruct neg; cbn [sign app]; [|exact G]. rewrite <- G. reflexivity.
Qed.
Lemma gap_further : further ints gap = ints (dec_Z z).
Proof.
  assert (T : forallb mix_cp (spaces k ++ B) = true).
  { rewrite forallb_app. rewrite (digits_and_digit _ B FB : forallb mix_cp B = true), (spaces_alpha (u " /-\frac{}") eq_refl : forallb mix_cp (spaces k) = true). reflexivity. }
  destruct (int_exact z Hz) as (f & Hf & Hi & _).
  rewrite (further_steps ints gap gap gap gap (dec_Z z) (dec_Z z)).
  - assert (str_is_int (dec_Z z) = true) as ->; [|reflexivity].
    unfold str_is_int. rewrite strip_commas_plain by apply plain_num_digits, dec_Z_plain. rewrite Hf. exact Hi.
  - unfold gap. apply starts_brace; assumption.
  - unfold norm_int, gap. rewrite not_float; auto.
    + destruct k; [contradiction|discriminate].
    + destruct k; [contradiction|]. cbn. repeat split; discriminate.
    + apply mix_ascii, T.
    + apply (alpha_not_in mix_cp); [reflexivity|exact T].
    + pose proof (gap_last (spaces k)) as H. destruct (rev (spaces k ++ B)); [exact I|]. apply digit_not_space, H.
  - assert (contains [bslash] gap = false) as ->; [|reflexivity]. apply (alpha_contains (digits_and (u " -"))); [reflexivity|]. apply gap_alpha; reflexivity.
  - unfold gap. apply minus_keep; auto. apply (alpha_not_in (digits_and (u " "))); [reflexivity|].
    rewrite forallb_app, (digits_and_digit _ B FB), (spaces_alpha (u " ") eq_refl). reflexivity.
  - unfold inject_mixed. rewrite (alpha_sub (digits_and (u " -")) mixed_re1) by ((vm_compute; reflexivity) || (apply gap_alpha; reflexivity)).
    apply (alpha_sub (digits_and (u " -")) mixed_re2); [vm_compute; reflexivity|apply gap_alpha; reflexivity].
  - rewrite gap_closed. symmetry. exact E.
  - apply (lower_id (digits_and (u "+-/\frac{}"))); [exact mix_lower|]. rewrite E. rewrite !forallb_app, (digits_and_digit _ A FA), (digits_and_digit _ B FB).
    destruct neg; reflexivity.
Qed.
Lemma gap_normalize : string_normalize ints gap = NStr (ints (dec_Z z)).
Proof.
  rewrite (inert_normalize mix_cp mix_inert gap (gap_alpha (u " /-\frac{}") eq_refl eq_refl)).
  - rewrite gap_further. reflexivity.
  - apply (alpha_contains (digits_and (u " -"))); [reflexivity|]. apply gap_alpha; reflexivity.
  - unfold gap. apply strip_by_id.
    + destruct neg; cbn [sign app]; [reflexivity|]. destruct A as [|a A']; [contradiction|]. inversion FA; subst. apply (first_space_free a []). assumption.
    + rewrite !app_assoc. pose proof (gap_last ((sign neg ++ A) ++ spaces k)) as H. match type of H with match ?r with _ => _ end => destruct r as [|x t] end; [exact I|].
      unfold ascii_digit in H. apply N.eqb_neq. lia.
Qed.
End Merge.
(** However the digits are grouped. *)
Lemma groups_conflated W n z neg A B A' B' k k' : (- 2 ^ 53 <= z <= 2 ^ 53)%Z ->
  Forall ascii_digit (A ++ B) -> A <> [] -> B <> [] -> A' <> [] -> B' <> [] -> k <> O -> k' <> O ->
  dec_Z z = sign neg ++ A ++ B -> A ++ B = A' ++ B' ->
  forall st, is_equiv W (S n) (Some (sign neg ++ A ++ spaces k ++ B)) (Some (sign neg ++ A' ++ spaces k' ++ B')) st = (Ret true, st).
Proof.
  intros Hz F HA HB HA' HB' Hk Hk' E E'. pose proof F as F'. rewrite E' in F'. apply Forall_app in F. apply Forall_app in F'.
  apply (is_equiv_same_norm W n _ _ (int_str W (dec_Z z))); apply gap_normalize; try tauto. rewrite <- E'. exact E.
Qed.
(** A letter before \infty is taken for the variable of a membership. *)
Lemma infty_eaten ints : Forall (fun c => string_normalize ints (c :: u "\infty") = NStr (u "fty")) (u "abcdefghijklmnopqrstuvwxyzABCDEFGHIJKLMNOPQRSTUVWXYZ").
Proof.
  match goal with |- Forall ?P ?l => let l' := eval vm_compute in l in change (Forall P l') end.
  repeat (apply Forall_cons; [vm_compute; reflexivity|]). apply Forall_nil.
Qed.
Lemma infty_conflated W n c d : In c (u "abcdefghijklmnopqrstuvwxyzABCDEFGHIJKLMNOPQRSTUVWXYZ") -> In d (u "abcdefghijklmnopqrstuvwxyzABCDEFGHIJKLMNOPQRSTUVWXYZ") ->
  forall st, is_equiv W (S n) (Some (c :: u "\infty")) (Some (d :: u "\infty")) st = (Ret true, st).
Proof.
  intros Hc Hd. pose proof (infty_eaten (int_str W)) as F. rewrite Forall_forall in F. apply (is_equiv_same_norm W n _ _ (u "fty")); apply F; assumption.
Qed.
(** Units are removed inside words. *)
Lemma words_damaged ints : string_normalize ints (u "Sunday") = NStr (u "sun") /\ string_normalize ints (u "center") = NStr (u "er") /\
  string_normalize ints (u "negative infinity") = NStr (u "negativefinity") /\ string_normalize ints (u "radius") = NStr (u "ius").
Proof. repeat split; vm_compute; reflexivity. Qed.
Lemma words_conflated : exists a b : pystr, lower a <> lower b /\ forall W n st, is_equiv W (S n) (Some a) (Some b) st = (Ret true, st).
Proof.
  exists (u "Sunday"), (u "sun"). split; [vm_compute; discriminate|]. intros W n. apply (is_equiv_same_norm W n _ _ (u "sun")); vm_compute; reflexivity.
Qed.
