(** Lemmas about the str methods. *)
From Coq Require Import List NArith ZArith Bool Lia.
From Verif Require Import UnicodeTables PyStr.
Import ListNotations.
Local Open Scope N_scope.

Lemma str_eqb_eq a b : str_eqb a b = true <-> a = b.
Proof.
  revert b; induction a as [|x a IH]; destruct b as [|y b]; cbn; try (split; congruence).
  rewrite andb_true_iff, N.eqb_eq, IH. split; [intros [-> ->]|intros [= -> ->]]; auto.
Qed.
Lemma str_eqb_refl a : str_eqb a a = true.
Proof. apply str_eqb_eq; reflexivity. Qed.
Lemma str_eqb_neq a b : str_eqb a b = false <-> a <> b.
Proof. rewrite <- str_eqb_eq. destruct (str_eqb a b); split; congruence. Qed.

Lemma starts_with_spec p s : starts_with p s = true <-> exists t, s = p ++ t.
Proof.
  revert s; induction p as [|x p IH]; intro s; cbn.
  - split; eauto.
  - destruct s as [|y s].
    + split; [discriminate|]. intros [t H]. discriminate.
    + rewrite andb_true_iff, N.eqb_eq, IH. split.
      * intros [-> [t ->]]. exists t; reflexivity.
      * intros [t [= -> ->]]. eauto.
Qed.

Lemma contains_spec p s : contains p s = true <-> exists a b, s = a ++ p ++ b.
Proof.
  induction s as [|c s IH]; cbn.
  - rewrite orb_false_r, starts_with_spec. split.
    + intros [t H]. exists [], t. exact H.
    + intros (a & b & H). destruct a; [|discriminate]. exists b. exact H.
  - rewrite orb_true_iff, starts_with_spec, IH. split.
    + intros [[t ->]|(a & b & ->)]; [exists [], t|exists (c :: a), b]; reflexivity.
    + intros (a & b & H). destruct a as [|d a].
      * left; exists b; exact H.
      * right. injection H as -> ->. eauto.
Qed.

Lemma contains_single c s : contains [c] s = true <-> In c s.
Proof.
  rewrite contains_spec. split.
  - intros (a & b & ->). apply in_or_app; right; left; reflexivity.
  - intro H. apply in_split in H. exact H.
Qed.

(** strip *)
Lemma lstrip_by_all p w s : forallb p w = true -> lstrip_by p (w ++ s) = lstrip_by p s.
Proof. induction w as [|c w IH]; cbn; [reflexivity|]. destruct (p c); [apply IH|discriminate]. Qed.
Lemma lstrip_by_nil p w : forallb p w = true -> lstrip_by p w = [].
Proof. intro H. rewrite <- (app_nil_r w). rewrite lstrip_by_all by exact H. reflexivity. Qed.
Lemma lstrip_by_snoc p s c : p c = false -> lstrip_by p (s ++ [c]) = lstrip_by p s ++ [c].
Proof. intro H. induction s as [|d s IH]; cbn; [rewrite H; reflexivity|]. destruct (p d); [exact IH|reflexivity]. Qed.
Lemma lstrip_split p s : exists w, s = w ++ lstrip_by p s /\ forallb p w = true.
Proof.
  induction s as [|c s (w & H1 & H2)]; cbn; [exists []; auto|].
  destruct (p c) eqn:E.
  - exists (c :: w). cbn. rewrite E, H2. rewrite <- H1. auto.
  - exists []; auto.
Qed.
Lemma lstrip_head p s : match lstrip_by p s with [] => True | c :: _ => p c = false end.
Proof. induction s as [|c s IH]; cbn; [exact I|]. destruct (p c) eqn:E; [exact IH|exact E]. Qed.
Lemma forallb_rev {A} (p : A -> bool) l : forallb p (rev l) = forallb p l.
Proof.
  induction l as [|x l IH]; [reflexivity|]. cbn. rewrite forallb_app, IH. cbn.
  rewrite andb_true_r. apply andb_comm.
Qed.
Lemma strip_by_pad p w1 w2 s : forallb p w1 = true -> forallb p w2 = true ->
  strip_by p (w1 ++ s ++ w2) = strip_by p s.
Proof.
  intros H1 H2. unfold strip_by. rewrite lstrip_by_all by exact H1. f_equal.
  destruct (lstrip_split p s) as (w & Hs & Hw).
  pose proof (lstrip_head p s) as Hh.
  destruct (lstrip_by p s) as [|c t] eqn:E.
  - rewrite app_nil_r in Hs. subst w.
    rewrite (lstrip_by_nil p (s ++ w2)) by (rewrite forallb_app, Hw, H2; reflexivity). reflexivity.
  - rewrite Hs at 1. rewrite <- app_assoc, lstrip_by_all by exact Hw.
    change ((c :: t) ++ w2) with (c :: (t ++ w2)). cbn [lstrip_by]. rewrite Hh.
    change (c :: t ++ w2) with ((c :: t) ++ w2).
    rewrite rev_app_distr, lstrip_by_all by (rewrite forallb_rev; exact H2). reflexivity.
Qed.
Lemma strip_by_id p s :
  (match s with [] => True | c :: _ => p c = false end) ->
  (match rev s with [] => True | c :: _ => p c = false end) -> strip_by p s = s.
Proof.
  intros H1 H2. unfold strip_by.
  assert (lstrip_by p s = s) as -> by (destruct s; cbn; [reflexivity|rewrite H1; reflexivity]).
  assert (lstrip_by p (rev s) = rev s) as -> by (destruct (rev s); cbn; [reflexivity|rewrite H2; reflexivity]).
  apply rev_involutive.
Qed.
(** What strip removes *)
Lemma strip_by_spec p s : exists w1 w2, s = w1 ++ strip_by p s ++ w2 /\ forallb p w1 = true /\ forallb p w2 = true.
Proof.
  unfold strip_by. destruct (lstrip_split p s) as (w & Hs & Hw).
  destruct (lstrip_split p (rev (lstrip_by p s))) as (w' & Hs' & Hw').
  exists w, (rev w'). split; [|split; [exact Hw|rewrite forallb_rev; exact Hw']].
  rewrite Hs at 1. f_equal. rewrite <- (rev_involutive (lstrip_by p s)), Hs' at 1. apply rev_app_distr.
Qed.
Lemma strip_incl p s c : In c (strip_by p s) -> In c s.
Proof.
  intro H. destruct (strip_by_spec p s) as (w1 & w2 & E & _). rewrite E.
  apply in_or_app; right; apply in_or_app; left; exact H.
Qed.
Lemma strip_by_length p s : (length (strip_by p s) <= length s)%nat.
Proof.
  destruct (strip_by_spec p s) as (w1 & w2 & E & _). apply (f_equal (@length N)) in E.
  rewrite !app_length in E. lia.
Qed.
