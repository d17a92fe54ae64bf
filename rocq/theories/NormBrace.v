(** A pair of outer braces (/repo/math_evaluation/core/latex_normalize.py:386-387). *)
From Coq Require Import String List NArith ZArith Bool Lia.
From Verif Require Import UnicodeTables PyStr PyStrTheory NumTheory Regex RegexTheory RegexFirst Constants
  Normalize NormTheory NormNum NormTime Arith Split SplitTheory Spec Monad MonadTheory Eval EvalTheory EvalTheory2 NormLeft NormOr TypeTheory.
Import ListNotations.
Local Open Scope N_scope.

(** ** Specification *)
(** digits, operators, brackets of all kinds, relations, spaces and a few letters *)
Definition brace_cp : N -> bool := digits_and (u "-+*/^.(){}[] =<>|!xyzabc").
(** text that has no outer braces of its own and no outer spaces *)
Definition brace_free (t : pystr) : Prop := ~ (exists x, t = 123 :: x ++ [125]).
Definition trimmed (t : pystr) : Prop := match t with 32 :: _ => False | _ => True end /\ match rev t with 32 :: _ => False | _ => True end.
Definition braced (t : pystr) : pystr := 123 :: t ++ [125].

Lemma brace_inert : inert brace_cp = true.
Proof. vm_compute. reflexivity. Qed.
Lemma trimmed_strip t : trimmed t -> strip_sp t = t.
Proof.
  intros [H1 H2]. apply strip_by_id.
  - destruct t as [|c t]; [exact I|]. apply N.eqb_neq. intros <-. exact H1.
  - destruct (rev t) as [|c r]; [exact I|]. apply N.eqb_neq. intros <-. exact H2.
Qed.
Lemma further_braced ints t : brace_free t -> further ints (braced t) = further ints t.
Proof.
  intro Hb. assert (B : starts_with [123] (braced t) && ends_with [125] (braced t) = true).
  { unfold ends_with, braced. change (123 :: t ++ [125]) with ((123 :: t) ++ [125]) at 2. rewrite rev_app_distr. reflexivity. }
  assert (M : mid (braced t) = t) by apply mid_cons.
  unfold further. rewrite B, M. destruct (starts_with [123] t && ends_with [125] t) eqn:E; [|reflexivity].
  exfalso. apply wrapped_inv in E; [|discriminate]. apply Hb. exists (mid t). exact E.
Qed.
Lemma plain_read ints t : forallb brace_cp t = true -> trimmed t -> string_normalize ints t = NStr (further ints t).
Proof. intros H T. apply (inert_normalize brace_cp brace_inert _ H); [apply (alpha_contains brace_cp); [reflexivity|exact H]|apply trimmed_strip, T]. Qed.
Theorem braced_read ints t : forallb brace_cp t = true -> trimmed t -> brace_free t -> string_normalize ints (braced t) = string_normalize ints t.
Proof.
  intros H T Hb. rewrite !plain_read; [rewrite further_braced by exact Hb; reflexivity|exact H|exact T| |].
  - unfold braced. cbn [forallb]. rewrite forallb_app, H. reflexivity.
  - split; [exact I|]. unfold braced. change (123 :: t ++ [125]) with ((123 :: t) ++ [125]). rewrite rev_app_distr. exact I.
Qed.
Theorem braced_accepted W n t st : forallb brace_cp t = true -> trimmed t -> brace_free t ->
  is_equiv W (S n) (Some (braced t)) (Some t) st = (Ret true, st) /\ is_equiv W (S n) (Some t) (Some (braced t)) st = (Ret true, st).
Proof.
  intros H T Hb. pose proof (plain_read (int_str W) t H T) as R. pose proof (braced_read (int_str W) t H T Hb) as R'. rewrite R in R'. split; eapply is_equiv_same_norm; eassumption.
Qed.
Theorem braced_verdict W n t b st : forallb brace_cp t = true -> trimmed t -> brace_free t ->
  ~ equal_up_to_padding is_space (braced t) b -> ~ equal_up_to_padding is_space t b ->
  is_equiv W (S n) (Some (braced t)) (Some b) st = is_equiv W (S n) (Some t) (Some b) st.
Proof. intros H T Hb. apply same_norm_verdict, braced_read; assumption. Qed.
(** a pair in braces on both sides loses the first and the last brace *)
Theorem crossed_read ints x y : forallb brace_cp x = true -> forallb brace_cp y = true -> trimmed x -> trimmed y -> x <> [] -> y <> [] ->
  brace_free (x ++ u "}+{" ++ y) ->
  string_normalize ints (braced x ++ u "+" ++ braced y) = string_normalize ints (x ++ u "}+{" ++ y).
Proof.
  intros Hx Hy [Tx _] [_ Ty] Nx Ny Hb. rewrite <- (braced_read ints (x ++ u "}+{" ++ y)).
  - unfold braced. f_equal. cbn [app]. rewrite <- !app_assoc. reflexivity.
  - rewrite !forallb_app, Hx, Hy. reflexivity.
  - split.
    + destruct x; [contradiction|]. exact Tx.
    + rewrite !rev_app_distr. destruct (rev y) eqn:E; [|exact Ty]. apply (f_equal (@rev N)) in E. rewrite rev_involutive in E. contradiction.
  - exact Hb.
Qed.
