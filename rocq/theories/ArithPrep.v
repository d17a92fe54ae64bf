(** The words of arithmetic; the preparation of the text leaves them alone *)
From Coq Require Import String List NArith ZArith Bool Lia.
From Verif Require Import PyStr Regex Normalize NumTheory RegexTheory NormTheory L2S L2SValue Lexer Arith ArithLex.
Import ListNotations.
Local Open Scope N_scope.

Definition alphabet : list word :=
  starters ++ enders ++ followers ++ [w_lbrace; w_lbracket; w_period; w_comma] ++ equalities.
Definition lettered (t : token) : Prop := In (kind t, text t) alphabet /\ (lead t = [] \/ lead t = [32]).
Lemma lettered_tok w ld : In w alphabet -> ld = [] \/ ld = [32] -> lettered (tok w ld).
Proof. destruct w as [k s]. intros H L. split; assumption. Qed.
Lemma a_starter w : In w starters -> In w alphabet.
Proof. intro H. apply in_or_app; left; exact H. Qed.
Lemma a_ender w : In w enders -> In w alphabet.
Proof. intro H. apply in_or_app; right; apply in_or_app; left; exact H. Qed.
Lemma a_follower w : In w followers -> In w alphabet.
Proof. intro H. do 2 (apply in_or_app; right); apply in_or_app; left; exact H. Qed.
Lemma a_other w : In w [w_lbrace; w_lbracket; w_period; w_comma] -> In w alphabet.
Proof. intro H. do 3 (apply in_or_app; right). apply in_or_app; left. exact H. Qed.
Lemma a_equality w : In w equalities -> In w alphabet.
Proof. intro H. do 4 (apply in_or_app; right). exact H. Qed.
Lemma lettered_digits ld ds : Forall ascii_digit ds -> ld = [] \/ ld = [32] -> Forall lettered (digits ld ds).
Proof.
  intros F L. destruct F as [|c r Hc F]; [constructor|]. cbn [digits]. constructor; [apply lettered_tok; [apply a_starter, incl_digits, digit_word, Hc|exact L]|].
  induction F as [|d r Hd F IH]; [constructor|]. cbn [map]. constructor; [apply lettered_tok; [apply a_starter, incl_digits, digit_word, Hd|left; reflexivity]|exact IH].
Qed.
Section Writing.
Variable gap : pystr.
Hypothesis Hgap : gap = [] \/ gap = [32].
Local Notation body := (Arith.body gap).
Local Notation toks := (ArithLex.toks gap).
Local Notation at_level := (ArithLex.at_level gap).
Local Notation factor_toks := (ArithLex.factor_toks gap).
Local Notation op_lead := (ArithLex.op_lead gap).
Ltac one := first [apply a_starter; apply named_starter; cbn; tauto | apply a_ender; apply named_ender; cbn; tauto
  | apply a_other; cbn; tauto | apply a_follower; cbn; tauto].
Ltac lett := repeat first [assumption | apply Forall_nil | apply Forall_app; split | apply Forall_cons; [apply lettered_tok; [one|first [assumption | left; reflexivity]]|]
  | match goal with IH : forall ld, wf ?e -> _ -> Forall lettered (toks ?e ld) |- Forall lettered (toks ?e _) => apply IH; [tauto|first [assumption|left; reflexivity]] end].
Lemma lettered_toks e : forall ld, wf e -> ld = [] \/ ld = [32] -> Forall lettered (toks e ld).
Proof.
  assert (PA : forall e' ld, (forall ld, wf e' -> ld = [] \/ ld = [32] -> Forall lettered (toks e' ld)) -> wf e' -> ld = [] \/ ld = [32] -> Forall lettered (paren_toks ld (toks e' []))).
  { intros e' ld IH W L. unfold paren_toks. lett. }
  assert (LV : forall l e' ld, (forall ld, wf e' -> ld = [] \/ ld = [32] -> Forall lettered (toks e' ld)) -> wf e' -> ld = [] \/ ld = [32] -> Forall lettered (at_level l e' ld)).
  { intros l e' ld IH W L. unfold at_level. destruct (Nat.leb _ _); [apply IH; assumption|apply PA; assumption]. }
  induction e; intros ld W L; cbn [wf] in W.
  - apply lettered_digits; [apply W|exact L].
  - cbn [toks]. apply Forall_app; split; [apply lettered_digits; [apply W|exact L]|]. apply Forall_cons; [apply lettered_tok; [one|left; reflexivity]|].
    apply lettered_digits; [apply W|left; reflexivity].
  - cbn [toks]. apply Forall_app; split; [apply lettered_digits; [apply W|exact L]|]. lett.
  - cbn [toks]. apply Forall_cons; [apply lettered_tok; [apply a_starter, sym_starter, W|exact L]|constructor].
  - cbn [toks]. lett.
  - change (toks (Bin o e1 e2) ld) with (at_level (op_prec o) e1 ld ++ tok (w_op o) [] :: at_level (S (op_prec o)) e2 (op_lead o)).
    apply Forall_app; split; [apply LV; [exact IHe1|apply W|exact L]|]. apply Forall_cons; [apply lettered_tok; [apply a_follower, op_follower|left; reflexivity]|].
    apply LV; [exact IHe2|apply W|]. destruct o; cbn [ArithLex.op_lead]; (exact Hgap || (left; reflexivity)).
  - change (toks (Neg e) ld) with (tok w_minus ld :: at_level 3%nat e []). apply Forall_cons; [apply lettered_tok; [one|exact L]|apply LV; [exact IHe|exact W|left; reflexivity]].
  - change (toks (Scale ds e) ld) with (digits ld ds ++ factor_toks e). apply Forall_app; split; [apply lettered_digits; [apply W|exact L]|].
    unfold factor_toks. destruct (first_is _ _); [apply PA|apply LV]; (exact IHe || apply W || left; reflexivity).
  - change (toks (Fact e) ld) with (at_level 4%nat e ld ++ [tok w_bang []]). apply Forall_app; split; [apply LV; [exact IHe|exact W|exact L]|lett].
  - change (toks (Pow e1 e2) ld) with (at_level 6%nat e1 ld ++ tok w_caret [] :: tok w_lbrace [] :: toks e2 [] ++ [tok w_rbrace []]).
    apply Forall_app; split; [apply LV; [exact IHe1|apply W|exact L]|lett].
  - cbn [toks]. lett.
  - cbn [toks]. lett.
  - cbn [toks]. lett.
  - cbn [toks]. lett.
  - cbn [toks]. lett.
  - cbn [toks]. lett.
  - cbn [toks]. lett.
  - cbn [toks]. lett.
  - cbn [toks]. apply Forall_cons; [apply lettered_tok; [apply a_starter, fn_starter, W|exact L]|lett].
  - apply PA; [exact IHe|exact W|exact L].
  - change (toks (Juxt e1 e2) ld) with (left_toks gap e1 e2 ld ++ right_toks gap e2). apply Forall_app; split.
    + unfold left_toks. destruct (ArithLex.clash _ _ _); [apply PA|apply LV]; (exact IHe1 || apply W || exact L).
    + unfold right_toks. destruct (first_is _ _); [apply PA|apply LV]; (exact IHe2 || apply W || exact Hgap).
Qed.

(** [p] differs from [s] before the end of [s] *)
Fixpoint clash (p s : pystr) : bool :=
  match p, s with c :: p', d :: s' => negb (c =? d) || clash p' s' | _, _ => false end.
Fixpoint avoids (p w : pystr) : bool := match w with [] => true | _ :: w' => clash p w && avoids p w' end.
Lemma clash_sound p : forall s r, clash p s = true -> starts_with p (s ++ r) = false.
Proof.
  induction p as [|c p IH]; intros [|d s] r H; try discriminate. cbn [clash app starts_with] in *.
  destruct (c =? d); [apply IH, H|reflexivity].
Qed.
Lemma avoids_sound p w r : avoids p w = true -> contains p (w ++ r) = contains p r.
Proof.
  induction w as [|c w IH]; intro H; [reflexivity|]. cbn [avoids] in H. apply andb_true_iff in H. destruct H as [H1 H2].
  change ((c :: w) ++ r) with (c :: (w ++ r)). cbn [contains].
  change (c :: (w ++ r)) with ((c :: w) ++ r). rewrite (clash_sound _ _ r H1). apply IH, H2.
Qed.
Definition absent (p : pystr) : Prop := p <> [] /\ avoids p [32] = true /\ forallb (fun w => avoids p (snd w)) alphabet = true.
Lemma absent_src p ts : absent p -> Forall lettered ts -> contains p (src ts) = false.
Proof.
  intros (N & A32 & A). rewrite forallb_forall in A. induction 1 as [|t ts [Ht Hl] F IH]; [destruct p; [congruence|reflexivity]|].
  change (src (t :: ts)) with ((lead t ++ text t) ++ src ts). rewrite <- app_assoc. specialize (A _ Ht). cbn [snd] in A.
  destruct Hl as [->| ->]; [cbn [app]|rewrite (avoids_sound p [32]) by exact A32]; rewrite avoids_sound by exact A; exact IH.
Qed.
(** what contains [p] contains the core of p *)
Lemma starts_with_app p q s : starts_with (p ++ q) s = true -> starts_with p s = true.
Proof. revert s. induction p as [|c p IH]; intros [|d s] H; try reflexivity; try discriminate. cbn in *. apply andb_true_iff in H. destruct H as [-> H]. apply (IH _ H). Qed.
Lemma starts_with_skip p q s : starts_with (p ++ q) s = true -> contains q s = true.
Proof.
  revert s. induction p as [|c p IH]; intros s H.
  - cbn in H. destruct s; cbn [contains]; rewrite H; reflexivity.
  - destruct s as [|d s]; [discriminate|]. cbn in H. apply andb_true_iff in H. destruct H as [_ H]. cbn [contains]. rewrite (IH _ H), orb_true_r. reflexivity.
Qed.
Lemma contains_core p q r s : contains q s = false -> contains (p ++ q ++ r) s = false.
Proof.
  intro H. destruct (contains (p ++ q ++ r) s) eqn:E; [|reflexivity]. exfalso.
  assert (G : forall s, contains (p ++ q ++ r) s = true -> contains q s = true).
  { clear. induction s as [|c s IH]; intro E; cbn [contains] in E |- *.
    - rewrite orb_false_r in *. destruct p; [cbn in E; apply (starts_with_app q r), E|discriminate].
    - apply orb_true_iff in E. destruct E as [E|E]; [|rewrite (IH E), orb_true_r; reflexivity].
      rewrite app_assoc in E. apply starts_with_app in E. apply starts_with_skip in E. cbn [contains] in E. exact E. }
  rewrite (G _ E) in H. discriminate.
Qed.
Ltac absent_core p q r := apply replace_absent; apply (contains_core p q r); apply absent_src; [split; [discriminate|split; vm_compute; reflexivity]|assumption].
Lemma alphabet_no_underscore : forallb (fun w => negb (existsb (N.eqb 95) (snd w))) alphabet = true.
Proof. vm_compute. reflexivity. Qed.
Lemma src_no_underscore ts : Forall lettered ts -> ~ In 95 (src ts).
Proof.
  pose proof alphabet_no_underscore as T. rewrite forallb_forall in T. intros F H. apply in_flat_map in H. destruct H as (t & Ht & H).
  rewrite Forall_forall in F. destruct (F _ Ht) as [Ha Hl]. apply in_app_or in H. destruct H as [H|H].
  - destruct Hl as [E|E]; rewrite E in H; cbn in H; [exact H|]. destruct H as [H|H]; [discriminate|exact H].
  - specialize (T _ Ha). cbn [snd] in T. apply negb_true_iff in T. assert (existsb (N.eqb 95) (text t) = true); [|congruence].
    apply existsb_exists. exists 95. split; [exact H|reflexivity].
Qed.
Lemma prepare_src ts : Forall lettered ts -> prepare (src ts) = src ts.
Proof.
  intro F. unfold prepare. cbv zeta.
  assert (E1 : replace (u "\dfrac") (u "\frac") (src ts) = src ts) by absent_core (@nil N) (u "\dfrac") (@nil N). rewrite E1.
  assert (E2 : replace (u "\tfrac") (u "\frac") (src ts) = src ts) by absent_core (@nil N) (u "\tfrac") (@nil N). rewrite E2.
  assert (E3 : replace (u "\mathrm{T}") (u "T") (src ts) = src ts) by absent_core (@nil N) (u "\mathrm") (u "{T}"). rewrite E3.
  assert (E4 : replace (u "\mathrm{d}") (u "d") (src ts) = src ts) by absent_core (@nil N) (u "\mathrm") (u "{d}"). rewrite E4.
  assert (E5 : replace (u "{\rm d}") (u "d") (src ts) = src ts) by absent_core (u "{") (u "\rm") (u " d}"). rewrite E5.
  assert (E6 : replace (u "\left[\begin{matrix}") (u "\begin{bmatrix}") (src ts) = src ts) by absent_core (u "\left[") (u "\begin") (u "{matrix}"). rewrite E6.
  assert (E7 : replace (u "\end{matrix}\right]") (u "\end{bmatrix}") (src ts) = src ts) by absent_core (@nil N) (u "\end") (u "{matrix}\right]"). rewrite E7.
  assert (E8 : forall t, re_sub perm_re t (src ts) = src ts) by (intro t; apply (sub_id_lit 95); [vm_compute; reflexivity|apply src_no_underscore, F]). rewrite E8.
  assert (E9 : replace (u "\displaystyle") (u " ") (src ts) = src ts) by absent_core (@nil N) (u "\displaystyle") (@nil N). rewrite E9.
  assert (E10 : replace (u "\quad") (u " ") (src ts) = src ts) by absent_core (@nil N) (u "\quad") (@nil N). rewrite E10.
  assert (E11 : replace (u "\qquad") (u " ") (src ts) = src ts) by absent_core (@nil N) (u "\qquad") (@nil N). rewrite E11.
  assert (E12 : replace (u "~") (u " ") (src ts) = src ts) by absent_core (@nil N) (u "~") (@nil N). rewrite E12.
  assert (E13 : replace (u "\,") (u " ") (src ts) = src ts) by absent_core (@nil N) (u "\,") (@nil N). rewrite E13.
  absent_core (@nil N) (u "$") (@nil N).
Qed.
Theorem prepare_latex e : wf e -> prepare (body e) = body e.
Proof.
  intro W. rewrite <- (src_toks gap e [] W : src (toks e []) = body e). apply prepare_src, lettered_toks; [exact W|left; reflexivity].
Qed.
End Writing.
