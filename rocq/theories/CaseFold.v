(** The normaliser forgets whether a letter is capital. *)
From Coq Require Import String List NArith ZArith Bool Lia.
From Verif Require Import PyStr PyStrTheory Normalize Monad Eval EvalTheory Arith LatexForm Pair Answer Pipeline.
Import ListNotations.
Local Open Scope N_scope.

(** Only the letter D becomes a letter the grammar has another use for (the d of a differential). *)
Lemma low_wf e : wf e -> occurs (u "D") e = false -> wf (low e).
Proof.
  assert (T : forallb (fun x => if str_eqb (sym_name x) (u "D") then true else existsb (str_eqb (low_name x)) symbols) symbols = true) by (vm_compute; reflexivity).
  rewrite forallb_forall in T.
  induction e; cbn [wf occurs low]; intros W H; rewrite ?orb_false_iff in H; try tauto.
  specialize (T x W). rewrite H in T. apply existsb_exists in T. destruct T as (y & Hy & E). apply str_eqb_eq in E. rewrite E. exact Hy.
Qed.
Section Case.
Variable ints : pystr -> pystr.
Theorem reads_small e s : wf e -> occurs (u "D") e = false -> printable e -> literal e = false -> written e s -> answer ints s (low e).
Proof.
  intros W H P L Hs. pose proof (low_wf e W H) as W'. split; [exact W'|]. split; [apply printable_low, P|].
  destruct Hs.
  - split; [apply finishes_strip, (printable_finishes [32] e); auto|]. apply latex_lowers; auto.
  - split; [apply finishes_strip, (printable_finishes [] e); auto|]. apply tight_lowers; auto.
Qed.
(** Expressions whose texts differ in the case of letters only *)
Lemma same_small e1 e2 : wf e1 -> wf e2 -> occurs (u "D") e1 = false -> occurs (u "D") e2 = false -> lower (latex e1) = lower (latex e2) ->
  tight (low e1) = tight (low e2).
Proof.
  intros W1 W2 H1 H2 E. unfold latex in E. rewrite !lower_body in E by auto.
  rewrite <- (tight_latex (low e1)), <- (tight_latex (low e2)) by (apply low_wf; assumption). unfold latex. rewrite E. reflexivity.
Qed.
End Case.
Theorem case_forgotten (W : World) n e1 e2 s1 s2 st :
  wf e1 -> wf e2 -> occurs (u "D") e1 = false -> occurs (u "D") e2 = false -> printable e1 -> printable e2 -> literal e1 = false -> literal e2 = false ->
  written e1 s1 -> written e2 s2 -> lower (latex e1) = lower (latex e2) -> is_equiv W (S n) (Some s1) (Some s2) st = (Ret true, st).
Proof.
  intros W1 W2 H1 H2 P1 P2 L1 L2 S1 S2 E.
  destruct (reads_small (int_str W) e1 s1 W1 H1 P1 L1 S1) as (_ & _ & _ & N1). destruct (reads_small (int_str W) e2 s2 W2 H2 P2 L2 S2) as (_ & _ & _ & N2).
  rewrite <- (same_small e1 e2 W1 W2 H1 H2 E) in N2. exact (is_equiv_same_norm W n s1 s2 _ N1 N2 st).
Qed.
