(** Answers with several readings (percentages, based numerals, afternoon hours), with the repository's own comparison and latex2sympy. *)
From Coq Require Import String List NArith ZArith QArith Bool Lia Arith Permutation.
From Verif Require Import PyStr PyStrTheory Spec Normalize Monad MonadTheory Split SplitTheory Eval EvalTheory EvalTheory2 Interval IntervalEval Grammar Parser ParserTheory ParserNum
  L2S L2STheory L2SState L2SValue Arith ArithParse LatexForm Answer SeqAuto SeqForm ParserMore Pipeline Sequence SeqNum.
Import ListNotations.
Local Open Scope mon_scope.
Local Close Scope Q_scope.

(** ** Specification: the readings of a text are the texts of these expressions *)
Definition reads (ints : pystr -> pystr) (s : pystr) (l : list arith) : Prop :=
  strip s = s /\ l <> [] /\ Forall (fun e => wf e /\ LatexForm.plain e) l /\ (forall x, reading_of x (string_normalize ints s) <-> In x (map tight l)).
Lemma answer_reads ints s e : answer ints s e -> reads ints s [e].
Proof.
  intros (W & P & T & N). split; [exact T|]. split; [discriminate|]. split; [repeat constructor; assumption|]. intro x. rewrite N. cbn. intuition congruence.
Qed.

Section Numbers.
Context {V St E Ob Sym Num : Type}.
Variable O : LSympy V.
Variable depth : nat.
Variable emb : lv V -> pyval E Ob.
Variable SP : Sympy St E Ob Sym Num.
Variable num : pyval E Ob -> Q -> bool -> Prop.
Context {A : Type}.
Variable K : arithmetic A.
Variable den : V -> A.
Variable rho : pystr -> A.
Hypothesis F : faithful K V den rho [] (o_md5 _ O) O.
Hypothesis HP : forall s t, parse_text s = Found t -> o_parse _ O s = Ret t.
Hypothesis X : exact SP num.
Hypothesis HA : answers SP num.
Hypothesis HN : forall v q, worth V den O v (of_Q K q) -> exists i, num (emb (LV v)) q i.
Context {V' S : Type}.
Variable IS : ISympy (globals V * St) V' S.
Variable cmp : S -> S -> M (globals V * St) bool.
Variable ints : pystr -> pystr.
Variable iter : list pystr -> list pystr.
Variable iter_ok : forall l, Permutation (iter l) (nodup str_eq_dec l).
Variable lhs : pystr -> M (globals V * St) unit.
Notation J := (joined O depth emb SP).
Notation W m := (with_intervals IS cmp ints iter iter_ok (are_equal_with_simplify J (Datatypes.S m)) lhs).

(** An expression and the number it stands for *)
Definition worth_number (p : arith * Q) : Prop := value K rho (fst p) = of_Q K (snd p) /\ python_agrees SP num (tight (fst p)) (snd p).
Lemma latex_settles n m rec e1 e2 q1 q2 : depth = Datatypes.S n -> wf e1 -> LatexForm.plain e1 -> wf e2 -> LatexForm.plain e2 -> worth_number (e1, q1) -> worth_number (e2, q2) ->
  settles (is_latex_equiv (W m) rec (tight e1) (tight e2)) (fun b => b = true <-> scalar_close q1 q2).
Proof.
  intros D W1 P1 W2 P2 [V1 A1] [V2 A2] st U. cbn [fst snd] in *.
  assert (L : is_latex_equiv (W m) rec (tight e1) (tight e2) st = are_equal_under_sympy (W m) (tight e1) (tight e2) st).
  { destruct (tight_single e1 W1 P1) as (N1 & C1 & B1 & U1 & M1). destruct (tight_single e2 W2 P2) as (N2 & C2 & B2 & U2 & M2).
    unfold is_latex_equiv. destruct (tight e2) as [|c2 s2]; [congruence|].
    unfold possible_tuple. rewrite (split_plain _ C1 B1 U1), (split_plain _ C2 B2 U2), M1, M2.
    destruct (has_bracket (tight e1)); unfold bind; [rewrite (no_intervals IS cmp ints iter iter_ok _ lhs _ _ st C1 C2)|]; unfold lift, ret; cbn [fst snd]; rewrite !str_eqb_refl; reflexivity. }
  rewrite L. unfold are_equal_under_sympy, try_bare. cbn [equal_with_simplify with_intervals]. unfold are_equal_with_simplify.
  destruct (parse_settles O depth emb SP num K den rho F HP X HA HN n [] e1 q1 D (or_introl eq_refl) W1 V1 A1 st U) as (c1 & t1 & E1 & R1 & U1).
  destruct (parse_settles O depth emb SP num K den rho F HP X HA HN n [] e2 q2 D (or_introl eq_refl) W2 V2 A2 t1 U1) as (c2 & t2 & E2 & R2 & U2).
  change (body [] e1) with (tight e1) in E1. change (body [] e2) with (tight e2) in E2.
  destruct (candidates_agree O depth emb SP num X m q1 q2 c1 c2 R1 R2) as (b & Pb & Hb).
  pose proof (safe_any_gt _ c1 c2 (fun a b => safe_typed O depth emb SP _ a b (safe_equal O depth emb SP (Datatypes.S m))) t2 U2) as U3.
  specialize (Pb t2). exists b. unfold bind. rewrite E1, E2.
  destruct (any_gt (typed J (equal_sympy J (Datatypes.S m))) c1 c2 t2) as [r t3]. cbn [fst snd] in Pb, U3. subst r.
  exists t3. split; [reflexivity|]. split; [exact Hb|exact U3].
Qed.

(** ** Some pair is accepted *)
Section Any.
Variable m : nat.
Variable f : pystr -> pystr -> M (globals V * St) bool.
Variable P : pystr -> pystr -> Prop.
Lemma any_given_settles g l : (forall y, In y l -> settles (f g y) (fun b => b = true <-> P g y)) -> settles (any_given (W m) f g l) (fun b => b = true <-> exists y, In y l /\ P g y).
Proof.
  induction l as [|y l IH]; intro H.
  - apply settles_ret. split; [discriminate|intros (y & [] & _)].
  - cbn [any_given]. eapply settles_bind; [apply H; left; reflexivity|]. intros [|] Hb; cbn beta in Hb.
    + apply settles_ret. split; [intros _|reflexivity]. exists y. split; [left; reflexivity|apply Hb; reflexivity].
    + eapply settles_weaken; [|apply IH; intros; apply H; right; assumption]. intros b G. rewrite G. split.
      * intros (z & I & Q). exists z. split; [right; exact I|exact Q].
      * intros (z & [->|I] & Q); [apply Hb in Q; discriminate|]. exists z. split; assumption.
Qed.
Lemma any_pair_settles l1 l2 : (forall x y, In x l1 -> In y l2 -> settles (f x y) (fun b => b = true <-> P x y)) ->
  settles (any_pair (W m) f l1 l2) (fun b => b = true <-> exists x y, In x l1 /\ In y l2 /\ P x y).
Proof.
  induction l1 as [|x l1 IH]; intro H.
  - apply settles_ret. split; [discriminate|intros (x & y & [] & _)].
  - cbn [any_pair]. eapply settles_bind; [apply any_given_settles; intros; apply H; [left; reflexivity|assumption]|]. intros [|] Hb; cbn beta in Hb.
    + apply settles_ret. split; [intros _|reflexivity]. destruct (proj1 Hb eq_refl) as (y & I & Q). exists x, y. split; [left; reflexivity|]. split; assumption.
    + eapply settles_weaken; [|apply IH; intros; apply H; [right; assumption|assumption]]. intros b G. rewrite G. split.
      * intros (z & y & I & I' & Q). exists z, y. split; [right; exact I|]. split; assumption.
      * intros (z & y & [->|I] & I' & Q); [|exists z, y; repeat split; assumption].
        exfalso. assert (false = true) as G' by (apply Hb; exists y; split; assumption). discriminate G'.
Qed.
End Any.

(** ** The verdict on texts with several readings *)
Theorem readings_verdict n m k s1 s2 l1 l2 st : depth = Datatypes.S n -> reads ints s1 (map fst l1) -> reads ints s2 (map fst l2) ->
  Forall worth_number l1 -> Forall worth_number l2 -> unset st ->
  exists b, fst (is_equiv (W m) (Datatypes.S k) (Some s1) (Some s2) st) = Ret b /\
    (b = true <-> exists p1 p2, In p1 l1 /\ In p2 l2 /\ scalar_close (snd p1) (snd p2)).
Proof.
  intros D (T1 & L1 & G1 & N1) (T2 & L2 & G2 & N2) W1 W2 U. rewrite Forall_forall in G1, G2, W1, W2.
  assert (SC : forall p1 p2, In p1 l1 -> In p2 l2 -> tight (fst p1) = tight (fst p2) -> scalar_close (snd p1) (snd p2)).
  { intros p1 p2 I1 I2 Et. destruct (G1 _ (in_map fst _ _ I1)) as [Wa _]. destruct (G2 _ (in_map fst _ _ I2)) as [Wb _]. destruct (W1 _ I1) as [Va _]. destruct (W2 _ I2) as [Vb _].
    exact (same_text O depth emb SP num K den rho F HP X HN n (fst p1) (fst p2) (snd p1) (snd p2) st D Wa Wb Va Vb U Et). }
  assert (NE : l1 <> []) by (intros ->; apply L1; reflexivity).
  assert (SAME : (exists x, reading_of x (string_normalize ints s1) /\ reading_of x (string_normalize ints s2)) -> exists p1 p2, In p1 l1 /\ In p2 l2 /\ scalar_close (snd p1) (snd p2)).
  { intros (x & R1 & R2). apply N1 in R1. apply N2 in R2. rewrite map_map in R1, R2. apply in_map_iff in R1, R2. destruct R1 as (p1 & E1 & I1). destruct R2 as (p2 & E2 & I2).
    exists p1, p2. split; [exact I1|]. split; [exact I2|]. apply SC; [exact I1|exact I2|congruence]. }
  assert (SOME : exists x, reading_of x (string_normalize ints s1)).
  { destruct l1 as [|p l]; [congruence|]. exists (tight (fst p)). apply N1. left. reflexivity. }
  set (a := string_normalize ints s1) in *. set (b := string_normalize ints s2) in *.
  assert (PAIR : forall rec x y, reading_of x a -> reading_of y b -> settles (is_latex_equiv (W m) rec x y)
    (fun r => r = true <-> exists p1 p2, In p1 l1 /\ In p2 l2 /\ tight (fst p1) = x /\ tight (fst p2) = y /\ scalar_close (snd p1) (snd p2))).
  { intros rec x y R1 R2. apply N1 in R1. apply N2 in R2. rewrite map_map in R1, R2. apply in_map_iff in R1, R2. destruct R1 as (p1 & <- & I1). destruct R2 as (p2 & <- & I2).
    destruct (G1 _ (in_map fst _ _ I1)) as [Wa Pa]. destruct (G2 _ (in_map fst _ _ I2)) as [Wb Pb].
    assert (H1 : worth_number (fst p1, snd p1)) by (destruct p1; apply W1; exact I1). assert (H2 : worth_number (fst p2, snd p2)) by (destruct p2; apply W2; exact I2).
    intros st0 U0. destruct (latex_settles n m rec _ _ _ _ D Wa Pa Wb Pb H1 H2 st0 U0) as (r & st1 & Er & Hr & U1). exists r, st1. split; [exact Er|]. split; [|exact U1]. rewrite Hr. split.
    - intro C. exists p1, p2. repeat split; assumption.
    - intros (p1' & p2' & I1' & I2' & E1 & E2 & C).
      (* the verdict on the texts does not depend on the expression *)
      destruct (G1 _ (in_map fst _ _ I1')) as [Wa' Pa']. destruct (G2 _ (in_map fst _ _ I2')) as [Wb' Pb'].
      assert (H1' : worth_number (fst p1', snd p1')) by (destruct p1'; apply W1; exact I1'). assert (H2' : worth_number (fst p2', snd p2')) by (destruct p2'; apply W2; exact I2').
      destruct (latex_settles n m rec _ _ _ _ D Wa' Pa' Wb' Pb' H1' H2' st0 U0) as (r' & st1' & Er' & Hr' & _). rewrite E1, E2, Er in Er'. injection Er' as <- _. apply Hr, Hr', C. }
  cbn [is_equiv is_equiv_str]. unfold is_equiv_body. rewrite T1, T2. cbn [int_str with_intervals]. cbv zeta. fold a b.
  destruct (str_eqb s1 s2) eqn:Es.
  - exists true. split; [reflexivity|]. split; [intros _|reflexivity]. apply SAME. apply str_eqb_eq in Es. destruct SOME as [x Hx]. exists x. split; [exact Hx|]. unfold b. rewrite <- Es. exact Hx.
  - set (rec := is_equiv_str (W m) k).
    assert (GO : settles (any_pair (W m) (is_latex_equiv (W m) rec) (readings (W m) a) (readings (W m) b))
      (fun r => r = true <-> exists p1 p2, In p1 l1 /\ In p2 l2 /\ scalar_close (snd p1) (snd p2))).
    { eapply settles_weaken; [|apply (any_pair_settles m _ (fun x y => exists p1 p2, In p1 l1 /\ In p2 l2 /\ tight (fst p1) = x /\ tight (fst p2) = y /\ scalar_close (snd p1) (snd p2)))].
      - intros r Hr. cbn beta in Hr. rewrite Hr. split.
        + intros (x & y & _ & _ & p1 & p2 & I1 & I2 & _ & _ & C). exists p1, p2. repeat split; assumption.
        + intros (p1 & p2 & I1 & I2 & C). exists (tight (fst p1)), (tight (fst p2)). split; [apply readings_spec, N1; rewrite map_map; apply in_map_iff; exists p1; split; [reflexivity|exact I1]|].
          split; [apply readings_spec, N2; rewrite map_map; apply in_map_iff; exists p2; split; [reflexivity|exact I2]|]. exists p1, p2. repeat split; assumption.
      - intros x y I1 I2. apply PAIR; [apply (readings_spec (W m) a), I1|apply (readings_spec (W m) b), I2]. }
    assert (CN : (exists x y, a = NStr x /\ b = NStr y) \/ compare_norm (W m) rec a b = try_except (any_pair (W m) (is_latex_equiv (W m) rec) (readings (W m) a) (readings (W m) b)) (ret false)).
    { unfold compare_norm. destruct a, b; eauto. }
    assert (RUN : forall g, settles g (fun r => r = true <-> exists p1 p2, In p1 l1 /\ In p2 l2 /\ scalar_close (snd p1) (snd p2)) ->
      exists r, fst (try_except g (ret false) st) = Ret r /\ (r = true <-> exists p1 p2, In p1 l1 /\ In p2 l2 /\ scalar_close (snd p1) (snd p2))).
    { intros g Hg. destruct (Hg st U) as (r & st1 & Er & Hr & _). exists r. unfold try_except. rewrite Er. split; [reflexivity|exact Hr]. }
    destruct CN as [(x & y & Ea & Eb)|CN].
    + rewrite Ea, Eb. destruct (str_eqb x y) eqn:Exy.
      * exists true. split; [reflexivity|]. split; [intros _|reflexivity]. apply SAME. apply str_eqb_eq in Exy. exists x. rewrite Ea, Eb. split; [reflexivity|]. cbn. congruence.
      * unfold compare_norm. apply RUN. rewrite Ea, Eb in GO. cbn [readings any_pair any_given] in GO. intros st0 U0. destruct (GO st0 U0) as (r & st1 & Er & Hr & U1).
        exists r, st1. split; [|split; assumption]. unfold bind in Er. destruct (is_latex_equiv (W m) rec x y st0) as [[[|]|e0] s0]; cbn in Er; injection Er as <- <-; reflexivity.
    + destruct (RUN _ GO) as (r & Er & Hr). assert (RUN' : exists r, fst (compare_norm (W m) rec a b st) = Ret r /\ (r = true <-> exists p1 p2, In p1 l1 /\ In p2 l2 /\ scalar_close (snd p1) (snd p2))) by (exists r; split; [rewrite CN; exact Er|exact Hr]).
      clear RUN Er Hr. destruct a as [x|x], b as [y|y]; try exact RUN'.
      destruct (str_eqb x y) eqn:Exy; [|exact RUN']. exists true. split; [reflexivity|]. split; [intros _|reflexivity]. apply SAME. apply str_eqb_eq in Exy. exists x. split; [reflexivity|]. cbn. congruence.
Qed.
End Numbers.
