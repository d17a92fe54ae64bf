(** Sequences of numbers, with the repository's own comparison and latex2sympy. *)
From Coq Require Import String List NArith ZArith QArith Bool Lia Arith Permutation.
From Verif Require Import PyStr PyStrTheory Spec Normalize Monad MonadTheory Split SplitTheory Eval EvalTheory EvalTheory2 Interval IntervalEval Grammar Parser ParserTheory ParserNum
  L2S L2STheory L2SState L2SValue Arith ArithParse LatexForm Answer SeqAuto SeqForm ParserMore Pipeline Sequence.
Import ListNotations.
Local Open Scope mon_scope.
Local Close Scope Q_scope.

(** A choice for finitely many pairs *)
Lemma finite_choice (P : pystr -> pystr -> bool -> Prop) (l1 l2 : list pystr) : (forall x y, In x l1 -> In y l2 -> exists b, P x y b) ->
  exists v, forall x y, In x l1 -> In y l2 -> P x y (v x y).
Proof.
  intro H. assert (forall ps, (forall x y, In (x, y) ps -> exists b, P x y b) -> exists v, forall x y, In (x, y) ps -> P x y (v x y)) as X.
  { induction ps as [|[a b] ps IH]; intro Hp; [exists (fun _ _ => true); intros x y []|].
    destruct IH as [v Hv]; [intros; apply Hp; right; assumption|]. destruct (Hp a b) as [c Hc]; [left; reflexivity|].
    exists (fun x y => if str_eqb x a && str_eqb y b then c else v x y). intros x y Hi. destruct (str_eqb x a && str_eqb y b) eqn:E.
    - apply andb_true_iff in E. destruct E as [E1 E2]. apply str_eqb_eq in E1, E2. subst. exact Hc.
    - destruct Hi as [[= -> ->]|Hi]; [rewrite !str_eqb_refl in E; discriminate E|]. apply Hv, Hi. }
  destruct (X (list_prod l1 l2)) as [v Hv]; [intros x y Hi; apply in_prod_iff in Hi; apply H; tauto|]. exists v. intros x y Hx Hy. apply Hv, in_prod_iff. auto.
Qed.

Section Numbers.
Context {V St E Ob Sym Num : Type}.
Variable O : LSympy V.
Variable depth : nat.
Variable emb : lv V -> pyval E Ob.
Variable SP : Sympy St E Ob Sym Num.
Variable num : pyval E Ob -> Q -> bool -> Prop.
Context {A : Type}.
Variable K : arithmetic A.
Variable den : V -> A.
Variable rho : pystr -> A.
Hypothesis F : faithful K V den rho [] (o_md5 _ O) O.
Hypothesis HP : forall s t, parse_text s = Found t -> o_parse _ O s = Ret t.
Hypothesis X : exact SP num.
Hypothesis HA : answers SP num.
Hypothesis HN : forall v q, worth V den O v (of_Q K q) -> exists i, num (emb (LV v)) q i.
Context {V' S : Type}.
Variable IS : ISympy (globals V * St) V' S.
Variable cmp : S -> S -> M (globals V * St) bool.
Variable ints : pystr -> pystr.
Variable iter : list pystr -> list pystr.
Variable iter_ok : forall l, Permutation (iter l) (nodup str_eq_dec l).
Variable lhs : pystr -> M (globals V * St) unit.
Notation J := (joined O depth emb SP).
Notation W m := (with_intervals IS cmp ints iter iter_ok (are_equal_with_simplify J (Datatypes.S m)) lhs).

Theorem numbers_settle n m k e1 e2 s1 s2 q1 q2 : depth = Datatypes.S n -> answer ints s1 e1 -> answer ints s2 e2 ->
  value K rho e1 = of_Q K q1 -> value K rho e2 = of_Q K q2 -> python_agrees SP num (tight e1) q1 -> python_agrees SP num (tight e2) q2 ->
  settles (is_equiv_str (W m) (Datatypes.S k) s1 s2) (fun b => b = true <-> scalar_close q1 q2).
Proof.
  intros D (W1 & P1 & T1 & N1) (W2 & P2 & T2 & N2) V1 V2 A1 A2 st U. cbn [is_equiv_str]. unfold is_equiv_body.
  rewrite T1, T2. cbn [int_str with_intervals]. cbv zeta. rewrite N1, N2.
  destruct (str_eqb s1 s2) eqn:Es.
  - exists true, st. split; [reflexivity|]. split; [|exact U]. split; [intros _|reflexivity].
    apply (same_text O depth emb SP num K den rho F HP X HN n e1 e2 q1 q2 st D W1 W2 V1 V2 U).
    apply str_eqb_eq in Es. subst s2. rewrite N1 in N2. injection N2 as ->. reflexivity.
  - destruct (str_eqb (tight e1) (tight e2)) eqn:Et.
    + exists true, st. split; [reflexivity|]. split; [|exact U]. split; [intros _|reflexivity].
      apply (same_text O depth emb SP num K den rho F HP X HN n e1 e2 q1 q2 st D W1 W2 V1 V2 U). apply str_eqb_eq, Et.
    + rewrite (single_decided IS cmp ints iter iter_ok _ lhs _ _ _ st (tight_single e1 W1 P1) (tight_single e2 W2 P2)).
      unfold are_equal_under_sympy, try_bare. cbn [equal_with_simplify with_intervals]. unfold are_equal_with_simplify.
      destruct (parse_settles O depth emb SP num K den rho F HP X HA HN n [] e1 q1 D (or_introl eq_refl) W1 V1 A1 st U) as (c1 & t1 & E1 & R1 & U1).
      destruct (parse_settles O depth emb SP num K den rho F HP X HA HN n [] e2 q2 D (or_introl eq_refl) W2 V2 A2 t1 U1) as (c2 & t2 & E2 & R2 & U2).
      change (body [] e1) with (tight e1) in E1. change (body [] e2) with (tight e2) in E2.
      destruct (candidates_agree O depth emb SP num X m q1 q2 c1 c2 R1 R2) as (b & Pb & Hb).
      pose proof (safe_any_gt _ c1 c2 (fun a b => safe_typed O depth emb SP _ a b (safe_equal O depth emb SP (Datatypes.S m))) t2 U2) as U3.
      specialize (Pb t2). exists b. unfold bind. rewrite E1, E2.
      destruct (any_gt (typed J (equal_sympy J (Datatypes.S m))) c1 c2 t2) as [r t3]. cbn [fst snd] in Pb, U3. subst r.
      exists t3. split; [reflexivity|]. split; [exact Hb|exact U3].
Qed.

(** An item and its value; [e] has no capitals *)
Definition valued (p : arith * Q) : Prop :=
  answer ints (tight (fst p)) (fst p) /\ value K rho (fst p) = of_Q K (snd p) /\ python_agrees SP num (tight (fst p)) (snd p).
(** Equal to Python's tolerance, in order between equal brackets, one to one when bare *)
Definition same_sequence (k1 k2 : option kind) (l1 l2 : list (arith * Q)) : Prop :=
  agree (fun x y => exists p1 p2, In p1 l1 /\ In p2 l2 /\ x = tight (fst p1) /\ y = tight (fst p2) /\ scalar_close (snd p1) (snd p2))
    k1 k2 (map tight (map fst l1)) (map tight (map fst l2)).
(** Close values are equal *)
Definition well_separated (l1 l2 : list (arith * Q)) : Prop :=
  forall p1 p2, In p1 l1 -> In p2 l2 -> scalar_close (snd p1) (snd p2) -> (snd p1 == snd p2)%Q.
Lemma in_texts x (l : list (arith * Q)) : In x (map tight (map fst l)) <-> exists p, In p l /\ x = tight (fst p).
Proof.
  rewrite map_map, in_map_iff. split; intros (p & H1 & H2); exists p; auto.
Qed.
Lemma agree_impl (R R' : pystr -> pystr -> Prop) k1 k2 l1 l2 : (forall x y, In x l1 -> In y l2 -> R x y -> R' x y) -> agree R k1 k2 l1 l2 -> agree R' k1 k2 l1 l2.
Proof.
  intros H. assert (F2 : forall a b, (forall x, In x a -> In x l1) -> (forall y, In y b -> In y l2) -> Forall2 R a b -> Forall2 R' a b).
  { intros a b Ha Hb Fr. induction Fr; constructor; [apply H; [apply Ha; left|apply Hb; left|]; auto|]. apply IHFr; intros; [apply Ha|apply Hb]; right; assumption. }
  destruct k1, k2; cbn [agree]; try tauto.
  - intros [E' G]. split; [exact E'|]. apply F2; auto.
  - intros G d1 d2 D1 D2. destruct (G d1 d2 D1 D2) as (mm & P & Fr). exists mm. split; [exact P|]. apply F2; [intros; apply (proj2 D1); assumption| |exact Fr].
    intros y Hy. apply (proj2 D2). apply (Permutation_in y (Permutation_sym P)). rewrite app_nil_r. exact Hy.
Qed.
Theorem number_sequences n m k s1 s2 k1 k2 l1 l2 c sp st : depth = Datatypes.S n ->
  sequence_text s1 k1 (map fst l1) -> sequence_text s2 k2 (map fst l2) -> Forall valued l1 -> Forall valued l2 -> unset st ->
  yields (W m) unset (interval_stage IS cmp ints iter iter_ok (are_equal_with_simplify J (Datatypes.S m)) lhs (sequence k1 [] (map fst l1)) (sequence k2 [] (map fst l2))) (c, sp) ->
  exists b, fst (is_equiv (W m) (Datatypes.S (Datatypes.S k)) (Some s1) (Some s2) st) = Ret b /\
    (b = true -> c = true \/ same_sequence k1 k2 l1 l2) /\ (c = true -> b = true) /\
    (k1 <> None \/ well_separated l1 l2 -> same_sequence k1 k2 l1 l2 -> b = true).
Proof.
  intros D T1 T2 H1 H2 U HI. rewrite Forall_forall in H1, H2.
  assert (exists v, forall x y, In x (map tight (map fst l1)) -> In y (map tight (map fst l2)) ->
    yields (W m) unset (is_equiv_str (W m) (Datatypes.S k) x y) (v x y) /\
    (v x y = true <-> exists p1 p2, In p1 l1 /\ In p2 l2 /\ x = tight (fst p1) /\ y = tight (fst p2) /\ scalar_close (snd p1) (snd p2))) as [v Hv].
  { apply (finite_choice (fun x y b => yields (W m) unset (is_equiv_str (W m) (Datatypes.S k) x y) b /\
      (b = true <-> exists p1 p2, In p1 l1 /\ In p2 l2 /\ x = tight (fst p1) /\ y = tight (fst p2) /\ scalar_close (snd p1) (snd p2)))).
    intros x y Hx Hy. apply in_texts in Hx, Hy. destruct Hx as (p1 & I1 & ->), Hy as (p2 & I2 & ->).
    assert (ST : forall r1 r2, In r1 l1 -> In r2 l2 -> settles (is_equiv_str (W m) (Datatypes.S k) (tight (fst r1)) (tight (fst r2))) (fun b => b = true <-> scalar_close (snd r1) (snd r2))).
    { intros r1 r2 J1 J2. destruct (H1 r1 J1) as (a1 & b1 & c1), (H2 r2 J2) as (a2 & b2 & c2). exact (numbers_settle n m k _ _ _ _ _ _ D a1 a2 b1 b2 c1 c2). }
    destruct (ST p1 p2 I1 I2 st U) as (b & st' & Eb & Hb & U'). exists b. split.
    - intros s Us. destruct (ST p1 p2 I1 I2 s Us) as (b' & s' & Eb' & Hb' & Us'). exists s'. split; [|exact Us'].
      assert (b' = b) as <- by (apply eq_true_iff_eq; rewrite Hb, Hb'; tauto). exact Eb'.
    - split.
      + intro Tb. exists p1, p2. repeat split; try assumption. apply Hb, Tb.
      + intros (r1 & r2 & J1 & J2 & Q1 & Q2 & C). destruct (ST r1 r2 J1 J2 st U) as (b' & s' & Eb' & Hb' & _). rewrite <- Q1, <- Q2, Eb in Eb'. injection Eb' as <- _. apply Hb', C. }
  (* outside the two lists: false *)
  set (inb := fun x l => if in_dec str_eq_dec x l then true else false).
  set (w := fun x y => inb x (map tight (map fst l1)) && inb y (map tight (map fst l2)) && v x y).
  assert (Hin : forall x l, inb x l = true <-> In x l) by (intros x l; unfold inb; destruct (in_dec str_eq_dec x l); split; auto; discriminate).
  assert (Hw : forall x y, w x y = true <-> exists p1 p2, In p1 l1 /\ In p2 l2 /\ x = tight (fst p1) /\ y = tight (fst p2) /\ scalar_close (snd p1) (snd p2)).
  { intros x y. unfold w. rewrite !andb_true_iff, !Hin. split.
    - intros [[Ix Iy] Vx]. apply (Hv x y Ix Iy), Vx.
    - intro Hx. assert (In x (map tight (map fst l1)) /\ In y (map tight (map fst l2))) as [Ix Iy].
      { destruct Hx as (p1 & p2 & I1 & I2 & -> & -> & _). split; apply in_texts; eauto. }
      split; [auto|]. apply (Hv x y Ix Iy), Hx. }
  destruct (sequences_verdict IS cmp ints iter iter_ok _ lhs unset k w s1 s2 k1 k2 (map fst l1) (map fst l2) c sp T1 T2 HI) as (b & Yb & B1 & B2 & B3).
  { intros x y Hx Hy. assert (w x y = v x y) as ->; [|apply (Hv x y Hx Hy)]. unfold w. rewrite (proj2 (Hin x _) Hx), (proj2 (Hin y _) Hy). reflexivity. }
  { exists st. exact U. }
  destruct (Yb st U) as (st' & Eb & _). exists b. split; [rewrite Eb; reflexivity|]. split; [|split].
  - intro Tb. destruct (B1 Tb) as [C|Ag]; [left; exact C|right]. revert Ag. apply agree_impl. intros x y _ _. apply Hw.
  - exact B2.
  - intros Z Ag. apply B3; [|revert Ag; apply agree_impl; intros x y _ _; apply Hw].
    intros N x y z u Hxy Hzy Hzu. destruct Z as [Z|Z]; [congruence|].
    apply Hw in Hxy, Hzy, Hzu. apply Hw.
    destruct Hxy as (p1 & p2 & I1 & I2 & Ex & Ey & C1), Hzy as (p3 & p4 & I3 & I4 & Ez & Ey' & C2), Hzu as (p5 & p6 & I5 & I6 & Ez' & Eu & C3).
    exists p1, p6. repeat split; try assumption.
    (* the values of equal texts *)
    assert (SC : forall r1 r2 r3 r4, In r1 l1 -> In r2 l2 -> In r3 l1 -> In r4 l2 -> tight (fst r1) = tight (fst r3) -> tight (fst r2) = tight (fst r4) -> scalar_close (snd r1) (snd r2) -> scalar_close (snd r3) (snd r4)).
    { intros r1 r2 r3 r4 J1 J2 J3 J4 Q1 Q2 C.
      destruct (H1 r1 J1) as (a1 & b1 & c1), (H2 r2 J2) as (a2 & b2 & c2), (H1 r3 J3) as (a3 & b3 & c3), (H2 r4 J4) as (a4 & b4 & c4).
      destruct (numbers_settle n m k _ _ _ _ _ _ D a1 a2 b1 b2 c1 c2 st U) as (x1 & t1 & E1 & X1 & _).
      destruct (numbers_settle n m k _ _ _ _ _ _ D a3 a4 b3 b4 c3 c4 st U) as (x2 & t2 & E2 & X2 & _).
      rewrite Q1, Q2, E2 in E1. injection E1 as <- _. apply X2, X1, C. }
    assert (C13 : scalar_close (snd p3) (snd p2)) by (apply (SC p3 p4 p3 p2); congruence).
    assert (C36 : scalar_close (snd p3) (snd p6)) by (apply (SC p5 p6 p3 p6); congruence).
    apply Z in C1; [|assumption|assumption]. apply Z in C13; [|assumption|assumption]. apply Z in C36; [|assumption|assumption].
    left. rewrite C1, <- C13, C36. reflexivity.
Qed.
(** Three items or more: no interval gets in the way. *)
Theorem long_number_sequences n m k s1 s2 k1 k2 l1 l2 st : depth = Datatypes.S n ->
  sequence_text s1 k1 (map fst l1) -> sequence_text s2 k2 (map fst l2) -> Forall valued l1 -> Forall valued l2 -> unset st -> 3 <= length l1 -> 3 <= length l2 ->
  exists b, fst (is_equiv (W m) (Datatypes.S (Datatypes.S k)) (Some s1) (Some s2) st) = Ret b /\
    (b = true -> same_sequence k1 k2 l1 l2) /\ (k1 <> None \/ well_separated l1 l2 -> same_sequence k1 k2 l1 l2 -> b = true).
Proof.
  intros D T1 T2 H1 H2 U L1 L2.
  destruct (number_sequences n m k s1 s2 k1 k2 l1 l2 false false st D T1 T2 H1 H2 U) as (b & Eb & B1 & _ & B3).
  - destruct T1 as (g1 & m1 & _ & _ & E1 & R1 & _ & _ & F1 & _ & _), T2 as (g2 & m2 & _ & _ & E2 & R2 & _ & _ & F2 & _ & _).
    intros s Us. unfold interval_stage. destruct (has_bracket _); [|exists s; split; [reflexivity|exact Us]]. exists s. split; [|exact Us].
    apply long_intervals; try assumption; rewrite map_length; assumption.
  - exists b. split; [exact Eb|]. split; [|exact B3]. intro Tb. destruct (B1 Tb) as [|]; [discriminate|assumption].
Qed.
(** Pairs without brackets: the interval stage is skipped when the first text has none. *)
Theorem bare_number_sequences n m k s1 s2 k2 l1 l2 st : depth = Datatypes.S n ->
  sequence_text s1 None (map fst l1) -> sequence_text s2 k2 (map fst l2) -> Forall valued l1 -> Forall valued l2 -> unset st ->
  has_bracket (sequence None [] (map fst l1)) = false ->
  exists b, fst (is_equiv (W m) (Datatypes.S (Datatypes.S k)) (Some s1) (Some s2) st) = Ret b /\
    (b = true -> same_sequence None k2 l1 l2) /\ (well_separated l1 l2 -> same_sequence None k2 l1 l2 -> b = true).
Proof.
  intros D T1 T2 H1 H2 U HB.
  destruct (number_sequences n m k s1 s2 None k2 l1 l2 false false st D T1 T2 H1 H2 U) as (b & Eb & B1 & _ & B3).
  - intros s Us. unfold interval_stage. rewrite HB. exists s. split; [reflexivity|exact Us].
  - exists b. split; [exact Eb|]. split; [|intro Z; apply B3; right; exact Z]. intro Tb. destruct (B1 Tb) as [|]; [discriminate|assumption].
Qed.

(** ** In terms of the values *)
Notation close_pair := (fun p1 p2 : arith * Q => scalar_close (snd p1) (snd p2)).
Lemma same_texts_close n (st : globals V * St) (r1 r2 r3 r4 : arith * Q) : depth = Datatypes.S n -> unset st -> valued r1 -> valued r2 -> valued r3 -> valued r4 ->
  tight (fst r1) = tight (fst r3) -> tight (fst r2) = tight (fst r4) -> scalar_close (snd r1) (snd r2) -> scalar_close (snd r3) (snd r4).
Proof.
  intros D U (a1 & b1 & c1) (a2 & b2 & c2) (a3 & b3 & c3) (a4 & b4 & c4) Q1 Q2 C.
  destruct (numbers_settle n 0 0 _ _ _ _ _ _ D a1 a2 b1 b2 c1 c2 st U) as (x1 & t1 & E1 & X1 & _).
  destruct (numbers_settle n 0 0 _ _ _ _ _ _ D a3 a4 b3 b4 c3 c4 st U) as (x2 & t2 & E2 & X2 & _).
  rewrite Q1, Q2, E2 in E1. injection E1 as <- _. apply X2, X1, C.
Qed.
Definition close_texts (l1 l2 : list (arith * Q)) (x y : pystr) : Prop :=
  exists p1 p2, In p1 l1 /\ In p2 l2 /\ x = tight (fst p1) /\ y = tight (fst p2) /\ scalar_close (snd p1) (snd p2).
Lemma close_texts_iff n (st : globals V * St) l1 l2 : depth = Datatypes.S n -> unset st -> Forall valued l1 -> Forall valued l2 ->
  forall p1 p2, In p1 l1 -> In p2 l2 -> (close_texts l1 l2 (tight (fst p1)) (tight (fst p2)) <-> scalar_close (snd p1) (snd p2)).
Proof.
  intros D U H1 H2 p1 p2 I1 I2. rewrite Forall_forall in H1, H2. split; [|intro C; exists p1, p2; auto].
  intros (r1 & r2 & J1 & J2 & Q1 & Q2 & C). apply (same_texts_close n st r1 r2 p1 p2); auto.
Qed.
Lemma forall2_texts n (st : globals V * St) l1 l2 : depth = Datatypes.S n -> unset st -> Forall valued l1 -> Forall valued l2 ->
  (Forall2 (close_texts l1 l2) (map tight (map fst l1)) (map tight (map fst l2)) <-> Forall2 close_pair l1 l2).
Proof.
  intros D U H1 H2. pose proof (close_texts_iff n st l1 l2 D U H1 H2) as C. clear H1 H2.
  assert (forall a b, (forall p, In p a -> In p l1) -> (forall p, In p b -> In p l2) ->
    (Forall2 (close_texts l1 l2) (map tight (map fst a)) (map tight (map fst b)) <-> Forall2 close_pair a b)) as G; [|apply G; auto].
  induction a as [|p a IH]; intros [|p' b] Ha Hb; cbn [map].
  - split; constructor.
  - split; inversion 1.
  - split; inversion 1.
  - specialize (IH b (fun x Hx => Ha x (or_intror Hx)) (fun x Hx => Hb x (or_intror Hx))).
    specialize (C p p' (Ha p (or_introl eq_refl)) (Hb p' (or_introl eq_refl))).
    split; intro Fr; inversion Fr; subst; constructor; try (apply C; assumption); apply IH; assumption.
Qed.
Theorem tuples_of_numbers n m k s1 s2 j1 j2 l1 l2 st : depth = Datatypes.S n ->
  sequence_text s1 (Some j1) (map fst l1) -> sequence_text s2 (Some j2) (map fst l2) -> Forall valued l1 -> Forall valued l2 -> unset st -> 3 <= length l1 -> 3 <= length l2 ->
  exists b, fst (is_equiv (W m) (Datatypes.S (Datatypes.S k)) (Some s1) (Some s2) st) = Ret b /\ (b = true <-> j1 = j2 /\ Forall2 close_pair l1 l2).
Proof.
  intros D T1 T2 H1 H2 U L1 L2. destruct (long_number_sequences n m k s1 s2 (Some j1) (Some j2) l1 l2 st D T1 T2 H1 H2 U L1 L2) as (b & Eb & B1 & B2).
  exists b. split; [exact Eb|]. pose proof (forall2_texts n st l1 l2 D U H1 H2) as G. split.
  - intro Tb. destruct (B1 Tb) as [Ej Fr]. split; [exact Ej|]. apply G. exact Fr.
  - intros [Ej Fr]. apply B2; [left; discriminate|]. split; [exact Ej|]. apply G, Fr.
Qed.
(** Pairs in brackets are tried as intervals first; [c] is what that stage says. *)
Theorem pairs_of_numbers n m k s1 s2 j1 j2 l1 l2 c sp st : depth = Datatypes.S n ->
  sequence_text s1 (Some j1) (map fst l1) -> sequence_text s2 (Some j2) (map fst l2) -> Forall valued l1 -> Forall valued l2 -> unset st ->
  yields (W m) unset (possible_intervals (W m) (sequence (Some j1) [] (map fst l1)) (sequence (Some j2) [] (map fst l2))) (c, sp) ->
  exists b, fst (is_equiv (W m) (Datatypes.S (Datatypes.S k)) (Some s1) (Some s2) st) = Ret b /\ (b = true <-> c = true \/ (j1 = j2 /\ Forall2 close_pair l1 l2)).
Proof.
  intros D T1 T2 H1 H2 U HI. destruct (number_sequences n m k s1 s2 (Some j1) (Some j2) l1 l2 c sp st D T1 T2 H1 H2 U) as (b & Eb & B1 & B2 & B3).
  { unfold interval_stage. assert (has_bracket (sequence (Some j1) [] (map fst l1)) = true) as ->; [|exact HI].
    destruct T1 as (_ & _ & _ & _ & _ & R & _). unfold has_bracket, sequence, around, wrap. destruct j1; [| |exfalso; apply R; reflexivity]; cbn; rewrite ?orb_true_r; reflexivity. }
  exists b. split; [exact Eb|]. pose proof (forall2_texts n st l1 l2 D U H1 H2) as G. split.
  - intro Tb. destruct (B1 Tb) as [C|[Ej Fr]]; [left; exact C|right]. split; [exact Ej|]. apply G. exact Fr.
  - intros [C|[Ej Fr]]; [apply B2, C|]. apply B3; [left; discriminate|]. split; [exact Ej|]. apply G, Fr.
Qed.

(** Bare sequences as sets of values *)
Lemma bijection_matching (R : pystr -> pystr -> Prop) d1 : forall d2, NoDup d1 -> NoDup d2 -> (forall x, In x d1 -> exists y, In y d2 /\ R x y) -> (forall y, In y d2 -> exists x, In x d1 /\ R x y) ->
  (forall x y y', In x d1 -> In y d2 -> In y' d2 -> R x y -> R x y' -> y = y') -> (forall x x' y, In x d1 -> In x' d1 -> In y d2 -> R x y -> R x' y -> x = x') -> matching R d1 d2 [].
Proof.
  induction d1 as [|x d1 IH]; intros d2 N1 N2 H1 H2 U1 U2.
  - destruct d2 as [|y d2]; [exists []; split; [constructor|constructor]|]. destruct (H2 y (or_introl eq_refl)) as (x & [] & _).
  - destruct (H1 x (or_introl eq_refl)) as (y & Iy & Ry). destruct (in_split y d2 Iy) as (a & b & ->).
    assert (Iab : forall z, In z (a ++ b) -> In z (a ++ y :: b)) by (intros z Hz; apply in_app_or in Hz; apply in_or_app; cbn; tauto).
    apply NoDup_remove in N2. destruct N2 as [N2 Ny]. inversion N1 as [|? ? Nx N1']; subst.
    destruct (IH (a ++ b)) as (mm & P & Fr); try assumption.
    + intros z Hz. destruct (H1 z (or_intror Hz)) as (w & Iw & Rw). exists w. split; [|exact Rw]. apply in_app_or in Iw. apply in_or_app.
      destruct Iw as [|[<-|]]; [left; assumption| |right; assumption]. exfalso. apply Nx. rewrite (U2 x z y (or_introl eq_refl) (or_intror Hz) Iy Ry Rw). exact Hz.
    + intros w Hw. destruct (H2 w (Iab w Hw)) as (z & [<-|Iz] & Rz); [|exists z; auto]. exfalso. apply Ny. rewrite (U1 x y w (or_introl eq_refl) Iy (Iab w Hw) Ry Rz). exact Hw.
    + intros z w w' Hz Hw Hw'. apply U1; [right; exact Hz|apply Iab, Hw|apply Iab, Hw'].
    + intros z z' w Hz Hz' Hw. apply U2; [right; exact Hz|right; exact Hz'|apply Iab, Hw].
    + exists (y :: mm). split; [|constructor; assumption]. rewrite <- Permutation_middle. cbn [app]. constructor. exact P.
Qed.
(** Equal values are spelled alike. *)
Definition one_spelling (l : list (arith * Q)) : Prop := forall p p', In p l -> In p' l -> (snd p == snd p')%Q -> tight (fst p) = tight (fst p').
Definition same_values (l1 l2 : list (arith * Q)) : Prop :=
  (forall p, In p l1 -> exists p', In p' l2 /\ (snd p == snd p')%Q) /\ (forall p', In p' l2 -> exists p, In p l1 /\ (snd p == snd p')%Q).
Lemma bare_meaning n (st : globals V * St) l1 l2 : depth = Datatypes.S n -> unset st -> Forall valued l1 -> Forall valued l2 -> well_separated l1 l2 ->
  (same_sequence None None l1 l2 -> same_values l1 l2) /\ (one_spelling l1 -> one_spelling l2 -> same_values l1 l2 -> same_sequence None None l1 l2).
Proof.
  intros D U H1 H2 Sep. pose proof (close_texts_iff n st l1 l2 D U H1 H2) as C.
  assert (DE : forall l : list (arith * Q), exists d, distinct_elements (map tight (map fst l)) d).
  { intro l. exists (nodup str_eq_dec (map tight (map fst l))). split; [apply NoDup_nodup|intro; apply nodup_In]. }
  assert (F2 : forall (R : pystr -> pystr -> Prop) a b, Forall2 R a b -> (forall x, In x a -> exists y, In y b /\ R x y) /\ (forall y, In y b -> exists x, In x a /\ R x y)).
  { intros R a b Fr. induction Fr as [|x y a b Rxy Fr [G1 G2]]; [split; intros ? []|]. split.
    - intros z [<-|Hz]; [exists y; split; [left; reflexivity|exact Rxy]|]. destruct (G1 z Hz) as (w & Iw & Rw). exists w. split; [right; exact Iw|exact Rw].
    - intros z [<-|Hz]; [exists x; split; [left; reflexivity|exact Rxy]|]. destruct (G2 z Hz) as (w & Iw & Rw). exists w. split; [right; exact Iw|exact Rw]. }
  split.
  - intro Sm. destruct (DE l1) as [d1 D1], (DE l2) as [d2 D2]. destruct (Sm d1 d2 D1 D2) as (mm & P & Fr). rewrite app_nil_r in P. destruct (F2 _ _ _ Fr) as [G1 G2]. split.
    + intros p Hp. destruct (G1 (tight (fst p))) as (y & Iy & Ry); [apply (proj2 D1), in_texts; eauto|]. pose proof Ry as (r1 & r2 & J1 & J2 & Q1 & Q2 & _). subst y.
      exists r2. split; [exact J2|]. apply Sep; try assumption. apply C; assumption.
    + intros p' Hp'. destruct (G2 (tight (fst p'))) as (x & Ix & Rx); [apply (Permutation_in _ P), (proj2 D2), in_texts; eauto|]. pose proof Rx as (r1 & r2 & J1 & J2 & Q1 & Q2 & _). subst x.
      exists r1. split; [exact J1|]. apply Sep; try assumption. apply C; assumption.
  - intros O1 O2 [S1 S2] d1 d2 [N1 D1] [N2 D2]. apply (bijection_matching (close_texts l1 l2)); try assumption.
    + intros x Hx. apply D1, in_texts in Hx. destruct Hx as (p & Ip & ->). destruct (S1 p Ip) as (p' & Ip' & Q). exists (tight (fst p')). split; [apply D2, in_texts; eauto|].
      apply C; [assumption|assumption|left; exact Q].
    + intros y Hy. apply D2, in_texts in Hy. destruct Hy as (p' & Ip' & ->). destruct (S2 p' Ip') as (p & Ip & Q). exists (tight (fst p)). split; [apply D1, in_texts; eauto|].
      apply C; [assumption|assumption|left; exact Q].
    + intros x y y' Hx Hy Hy' R1 R2. apply D1, in_texts in Hx. apply D2, in_texts in Hy, Hy'. destruct Hx as (p & Ip & ->), Hy as (p1 & I1 & ->), Hy' as (p2 & I2 & ->).
      apply O2; try assumption. apply C in R1; [|assumption|assumption]. apply C in R2; [|assumption|assumption]. apply Sep in R1; [|assumption|assumption]. apply Sep in R2; [|assumption|assumption].
      rewrite <- R1, R2. reflexivity.
    + intros x x' y Hx Hx' Hy R1 R2. apply D1, in_texts in Hx, Hx'. apply D2, in_texts in Hy. destruct Hx as (p1 & I1 & ->), Hx' as (p2 & I2 & ->), Hy as (p & Ip & ->).
      apply O1; try assumption. apply C in R1; [|assumption|assumption]. apply C in R2; [|assumption|assumption]. apply Sep in R1; [|assumption|assumption]. apply Sep in R2; [|assumption|assumption].
      rewrite R1, R2. reflexivity.
Qed.
Theorem bare_numbers n m k s1 s2 l1 l2 st : depth = Datatypes.S n ->
  sequence_text s1 None (map fst l1) -> sequence_text s2 None (map fst l2) -> Forall valued l1 -> Forall valued l2 -> unset st ->
  has_bracket (sequence None [] (map fst l1)) = false \/ (3 <= length l1 /\ 3 <= length l2) -> well_separated l1 l2 ->
  exists b, fst (is_equiv (W m) (Datatypes.S (Datatypes.S k)) (Some s1) (Some s2) st) = Ret b /\
    (b = true -> same_values l1 l2) /\ (one_spelling l1 -> one_spelling l2 -> same_values l1 l2 -> b = true).
Proof.
  intros D T1 T2 H1 H2 U HB Sep. destruct (bare_meaning n st l1 l2 D U H1 H2 Sep) as [M1 M2].
  assert (exists b, fst (is_equiv (W m) (Datatypes.S (Datatypes.S k)) (Some s1) (Some s2) st) = Ret b /\
    (b = true -> same_sequence None None l1 l2) /\ (well_separated l1 l2 -> same_sequence None None l1 l2 -> b = true)) as (b & Eb & B1 & B2).
  { destruct HB as [HB|[L1 L2]]; [apply (bare_number_sequences n m k s1 s2 None l1 l2 st); assumption|].
    destruct (long_number_sequences n m k s1 s2 None None l1 l2 st D T1 T2 H1 H2 U L1 L2) as (b & Eb & B1 & B2). exists b. split; [exact Eb|]. split; [exact B1|]. intro. apply B2. right. assumption. }
  exists b. split; [exact Eb|]. split; [intro Tb; apply M1, B1, Tb|]. intros O1 O2 Sv. apply B2; [exact Sep|]. apply M2; assumption.
Qed.
(** A bare sequence is never a bracketed one. *)
Theorem mixed_numbers n m k s1 s2 k1 k2 l1 l2 st : depth = Datatypes.S n ->
  sequence_text s1 k1 (map fst l1) -> sequence_text s2 k2 (map fst l2) -> Forall valued l1 -> Forall valued l2 -> unset st -> 3 <= length l1 -> 3 <= length l2 -> k1 <> k2 ->
  fst (is_equiv (W m) (Datatypes.S (Datatypes.S k)) (Some s1) (Some s2) st) = Ret false.
Proof.
  intros D T1 T2 H1 H2 U L1 L2 N. destruct (long_number_sequences n m k s1 s2 k1 k2 l1 l2 st D T1 T2 H1 H2 U L1 L2) as (b & Eb & B1 & _).
  rewrite Eb. destruct b; [exfalso|reflexivity]. specialize (B1 eq_refl). unfold same_sequence in B1. destruct k1, k2; cbn [agree] in B1; try congruence; try contradiction.
  destruct B1 as [-> _]. congruence.
Qed.
End Numbers.
