(** [_str_to_complex] (latex_normalize.py:37-62): which letters i are taken for the imaginary unit *)
From Coq Require Import String List NArith Bool Lia.
From Verif Require Import UnicodeTables PyStr PyStrTheory Regex RegexTheory Normalize.
Import ListNotations.
Local Open Scope N_scope.

(** * Specification *)
Definition wordy (c : option N) : bool := match c with Some c => is_word c | None => false end.
Definition after_digit (c : option N) : bool := match c with Some c => is_digit c | None => false end.
(** a letter i alone, or right after a digit *)
Definition unit_at (prev next : option N) : bool := negb (wordy prev) && negb (wordy next) || after_digit prev.
Fixpoint imaginary (prev : option N) (s : pystr) : pystr :=
  match s with
  | [] => []
  | c :: r => (if (c =? 105) && unit_at prev (hd_error r) then u "\sqrt{-1}" else [c]) ++ imaginary (Some c) r
  end.

(** * Proof *)
Definition apart (l k : list (N * N)) : bool := forallb (fun r => forallb (fun q => (snd r <? fst q) || (snd q <? fst r)) k) l.
Lemma apart_sound l k c : apart l k = true -> in_ranges l c = true -> in_ranges k c = false.
Proof.
  intros A H. unfold in_ranges in *. apply existsb_exists in H. destruct H as (r & Hr & E). apply andb_true_iff in E. destruct E as [E1 E2]. apply N.leb_le in E1, E2.
  unfold apart in A. rewrite forallb_forall in A. specialize (A r Hr). rewrite forallb_forall in A.
  destruct (existsb _ k) eqn:Ek; [|reflexivity]. apply existsb_exists in Ek. destruct Ek as (q & Hq & F). apply andb_true_iff in F. destruct F as [F1 F2]. apply N.leb_le in F1, F2.
  specialize (A q Hq). apply orb_true_iff in A. destruct A as [A|A]; apply N.ltb_lt in A; lia.
Qed.
Lemma space_not_word c : is_space c = true -> is_word c = false.
Proof.
  intro H. unfold is_word. apply orb_false_iff. split.
  - destruct (c =? 95) eqn:E; [|reflexivity]. apply N.eqb_eq in E. subst. vm_compute in H. discriminate.
  - apply (apart_sound space_ranges); [vm_compute; reflexivity|exact H].
Qed.
Local Ltac red' := cbn -[is_word is_space is_digit firstn Nat.sub].
Local Ltac fin := split; [reflexivity|try discriminate; intros _; eexists; split; reflexivity].
Lemma imag_match pre s : match_at imag_re pre (105 :: s) = (if unit_at (hd_error pre) (hd_error s) then match_at imag_re pre (105 :: s) else None) /\
  (unit_at (hd_error pre) (hd_error s) = true -> exists st, match_at imag_re pre (105 :: s) = Some st /\ Regex.after st = s).
Proof.
  assert (P : forall c, is_space c = true -> is_word c = false) by apply space_not_word.
  assert (Q : forall c, is_word c = true -> is_space c = false) by (intros c H; destruct (is_space c) eqn:E; [apply P in E; congruence|reflexivity]).
  assert (H105 : is_word 105 = true) by (vm_compute; reflexivity).
  unfold match_at, imag_re, rseq, lit, unit_at, wordy, after_digit.
  destruct pre as [|p pre]; destruct s as [|q s]; red'.
  - fin.
  - destruct (is_word q) eqn:E; rewrite ?E; red'; fin.
  - destruct (is_word p) eqn:E; [rewrite (Q p E)|]; red'; destruct (is_digit p); red'; fin.
  - destruct (is_word p) eqn:E; [pose proof (Q p E) as Sp; rewrite ?Sp|]; (destruct (is_word q) eqn:E'; [pose proof (Q q E') as Sq|]); red'; destruct (is_digit p); red';
      try destruct (is_space p); red'; rewrite ?E'; red'; rewrite ?Sq; red'; fin.
Qed.
Lemma imag_other pre c s : c <> 105 -> match_at imag_re pre (c :: s) = None.
Proof.
  intro H. apply N.eqb_neq in H. unfold match_at. destruct (matches imag_re (MSt pre (c :: s) [])) as [|st l] eqn:E; [reflexivity|exfalso].
  assert (I : In st (matches imag_re (MSt pre (c :: s) []))) by (rewrite E; left; reflexivity). clear E.
  assert (C : forall a b st', In st' (matches (rseq (a :: lit 105 :: b)) (MSt pre (c :: s) [])) -> (forall x, In x (matches a (MSt pre (c :: s) [])) -> x = MSt pre (c :: s) []) -> False).
  { intros a b st' Hs Ha. apply in_rseq_cons in Hs. destruct Hs as (x & Hx & Hs). rewrite (Ha x Hx) in Hs. apply in_rseq_cons in Hs. destruct Hs as (y & Hy & _). cbn [matches lit Regex.after cls_in] in Hy. rewrite N.eqb_sym, H in Hy || rewrite H in Hy. destruct Hy. }
  assert (B : forall pos k x, In x (matches (RBehind pos k) (MSt pre (c :: s) [])) -> x = MSt pre (c :: s) []) by (intros pos k x Hx; cbn [matches] in Hx; destruct (Bool.eqb _ _); [destruct Hx as [<-|[]]; reflexivity|destruct Hx]).
  unfold imag_re in I. repeat (apply in_alt in I; destruct I as [I|I]); apply in_grp in I; destruct I as (y & w & I & _); (eapply C; [exact I|apply B]).
Qed.
Lemma imag_sub s : forall pre, sub_go imag_re (fun _ cs => expand [PLit (u "\sqrt{-1}")] cs) O pre s = imaginary (hd_error pre) s.
Proof.
  induction s as [|c s IH]; intro pre; [reflexivity|]. cbn [imaginary]. destruct (N.eq_dec c 105) as [->|Ne].
  - rewrite N.eqb_refl. cbn [andb]. destruct (imag_match pre s) as [M1 M2]. destruct (unit_at (hd_error pre) (hd_error s)).
    + destruct (M2 eq_refl) as (st & E & Ea). rewrite (sub_go_match imag_re _ pre [105] s st E Ea) by discriminate. cbn [rev app]. rewrite IH. reflexivity.
    + rewrite sub_go_none by exact M1. rewrite IH. reflexivity.
  - rewrite sub_go_none by (apply imag_other, Ne). apply N.eqb_neq in Ne. rewrite Ne. cbn [andb app]. rewrite IH. reflexivity.
Qed.
Lemma imag_absent s : ~ In 105 s -> forall p, imaginary p s = s.
Proof.
  induction s as [|c s IH]; intros H p; [reflexivity|]. cbn [imaginary]. destruct (c =? 105) eqn:E; [apply N.eqb_eq in E; subst; destruct H; left; reflexivity|].
  cbn [andb app]. rewrite IH; [reflexivity|]. intro Hi. apply H. right; exact Hi.
Qed.
Lemma replace_char c t s : replace [c] t s = flat_map (fun x => if x =? c then t else [x]) s.
Proof.
  unfold replace. induction s as [|x s IH]; [reflexivity|]. cbn [replace_go flat_map starts_with List.length Nat.sub]. rewrite IH, (N.eqb_sym x c). destruct (c =? x); reflexivity.
Qed.
(** One pass over the text; if there is a capital I, the small ones stay *)
Theorem to_complex s : str_to_complex s =
  if existsb (N.eqb 73) s then flat_map (fun c => if c =? 73 then u "\sqrt{-1}" else [c]) s else imaginary None s.
Proof.
  unfold str_to_complex. change (u "I") with [73]. change (u "i") with [105].
  assert (E : contains [73] s = existsb (N.eqb 73) s).
  { apply eq_true_iff_eq. rewrite contains_single, existsb_exists. split; [intro H; exists 73; split; [exact H|reflexivity]|intros (x & H & Ex); apply N.eqb_eq in Ex; subst; exact H]. }
  rewrite E. destruct (existsb (N.eqb 73) s); [apply replace_char|]. destruct (contains [105] s) eqn:E'; [apply (imag_sub s [])|].
  symmetry. apply imag_absent. rewrite <- contains_single. congruence.
Qed.
