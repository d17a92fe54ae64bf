(** is_equiv with the repository's own comparison and its own latex2sympy. *)
From Coq Require Import String List NArith ZArith QArith Qabs Bool Lia Arith Permutation.
From Verif Require Import PyStr PyStrTheory Normalize Monad MonadTheory Split Eval Interval IntervalEval Grammar Parser ParserTheory ParserNum
  L2S L2STheory L2SState L2SValue Arith ArithParse LatexForm Answer ParserMore.
Import ListNotations.
Local Open Scope mon_scope.
Local Close Scope Q_scope.

(** ** Two states *)
Section Two.
Context {S1 S2 : Type}.
Definition left {A} (m : M S1 A) : M (S1 * S2) A := fun st => let (r, s) := m (fst st) in (r, (s, snd st)).
Definition right {A} (m : M S2 A) : M (S1 * S2) A := fun st => let (r, s) := m (snd st) in (r, (fst st, s)).
Lemma right_pure {A} (m : M S2 A) a : pure_to m a -> pure_to (right m) a.
Proof. intros H st. unfold right. specialize (H (snd st)). destruct (m (snd st)). exact H. Qed.
Lemma right_keeps {A} (m : M S2 A) st : fst (snd (right m st)) = fst st.
Proof. unfold right. destruct (m (snd st)). reflexivity. Qed.
Lemma right_outcome {A} (m : M S2 A) a : outcome m a -> outcome (right m) a.
Proof.
  destruct a as [a|]; cbn; [apply right_pure|]. intros H st. destruct (H (snd st)) as [e E]. exists e. unfold right. destruct (m (snd st)). exact E.
Qed.
End Two.

(** [latex2sympy(expr)] of latex_parser.py:31 is latex2sympy2.py's; everything else is asked of [SP].
    [emb]: the object latex2sympy returns, as a value of the comparison. *)
Section Join.
Context {V St E Ob Sym Num : Type}.
Variable O : LSympy V.
Variable depth : nat.
Variable emb : lv V -> pyval E Ob.
Variable SP : Sympy St E Ob Sym Num.
Definition joined : Sympy (globals V * St) E Ob Sym Num := {|
  op_latex2sympy := fun s => v <- left (latex2sympy O depth s []) ;; ret (emb v);
  op_parse_latex := fun s => right (op_parse_latex _ _ _ _ _ SP s);
  op_parse_expr := fun s => right (op_parse_expr _ _ _ _ _ SP s);
  op_truthy := fun v => right (op_truthy _ _ _ _ _ SP v);
  op_eq := fun v w => right (op_eq _ _ _ _ _ SP v w);
  op_sub := fun v w => right (op_sub _ _ _ _ _ SP v w);
  op_neg := fun v => right (op_neg _ _ _ _ _ SP v);
  op_div := fun v w => right (op_div _ _ _ _ _ SP v w);
  op_inv := fun v => right (op_inv _ _ _ _ _ SP v);
  op_named_function := fun v => right (op_named_function _ _ _ _ _ SP v);
  op_is_symbol := fun v => right (op_is_symbol _ _ _ _ _ SP v);
  op_has_I := fun e => right (op_has_I _ _ _ _ _ SP e);
  op_matrix := fun l => right (op_matrix _ _ _ _ _ SP l);
  op_re := fun v => right (op_re _ _ _ _ _ SP v);
  op_im := fun v => right (op_im _ _ _ _ _ SP v);
  op_free_symbols := fun v => right (op_free_symbols _ _ _ _ _ SP v);
  op_same_symbols := op_same_symbols _ _ _ _ _ SP;
  op_sym_name := op_sym_name _ _ _ _ _ SP;
  op_subs_I := fun v s => right (op_subs_I _ _ _ _ _ SP v s);
  op_is_number := fun v => right (op_is_number _ _ _ _ _ SP v);
  op_is_Integer := fun v => right (op_is_Integer _ _ _ _ _ SP v);
  op_evalf := fun v l => right (op_evalf _ _ _ _ _ SP v l);
  op_expand_equal := fun v w => right (op_expand_equal _ _ _ _ _ SP v w);
  op_simplify := fun v => right (op_simplify _ _ _ _ _ SP v);
  op_abs := fun v => right (op_abs _ _ _ _ _ SP v);
  op_eq0 := fun v => right (op_eq0 _ _ _ _ _ SP v);
  op_is_zero := fun v => right (op_is_zero _ _ _ _ _ SP v);
  op_lt := fun v t => right (op_lt _ _ _ _ _ SP v t);
  op_ge1 := fun v => right (op_ge1 _ _ _ _ _ SP v);
  op_gt0 := fun v => right (op_gt0 _ _ _ _ _ SP v);
  op_rng := fun f => right (op_rng _ _ _ _ _ SP f) |}.

Variable num : pyval E Ob -> Q -> bool -> Prop.
Lemma joined_exact : exact SP num -> exact joined num.
Proof.
  intros [X1 X2 X3 X4 X5 X6 X7 X8 X9 X10 X11 X12 X13 X14]. split; cbn.
  - intros v q i H. destruct (X1 v q i H) as (e & -> & P). exists e. split; [reflexivity|apply right_pure, P].
  - intros v q i H. apply right_pure, (X2 v q i H).
  - intros v q i H. apply right_pure, (X3 v q i H).
  - intros v q i H. apply right_pure, (X4 v q i H).
  - intros v q i H. apply right_pure, (X5 v q i H).
  - intros v q i H. apply right_pure, (X6 v q i H).
  - intros v q i H. destruct (X7 v q i H) as (w & j & P & N). exists w, j. split; [apply right_pure, P|exact N].
  - intros v q i H. destruct (X8 v q i H) as (w & P & N). exists w. split; [apply right_pure, P|exact N].
  - intros v q i t H. apply right_pure, (X9 v q i t H).
  - intros v q i H. apply right_pure, (X10 v q i H).
  - intros v q i H. apply right_pure, (X11 v q i H).
  - intros v q i w p j H H' Z. destruct (X12 v q i w p j H H' Z) as (x & k & P & N). exists x, k. split; [apply right_pure, P|exact N].
  - intros v q i w p j H H'. destruct (X13 v q i w p j H H') as (x & k & P & N). exists x, k. split; [apply right_pure, P|exact N].
  - intros v q i w p j H H'. destruct (X14 v q i w p j H H') as (b & P & N). exists b. split; [apply right_pure, P|exact N].
Qed.

(** Truth and equality of numbers can be asked. *)
Definition answers : Prop :=
  (forall v q i, num v q i -> exists b, pure_to (op_truthy _ _ _ _ _ SP v) b) /\
  (forall v q i w p j, num v q i -> num w p j -> exists b, pure_to (op_eq _ _ _ _ _ SP v w) b).
(** SymPy's own parser rejects the text, or reads a number equal to [q]. *)
Definition python_agrees (s : pystr) (q : Q) : Prop :=
  outcome (op_parse_expr _ _ _ _ _ SP (replace (u "^") (u "**") s)) None \/
  exists w p i, outcome (op_parse_expr _ _ _ _ _ SP (replace (u "^") (u "**") s)) (Some w) /\ num w p i /\ (p == q)%Q.

Definition unset (st : globals V * St) : Prop := g_var (fst st) = [].
(** From a state without declared matrices to another, with a result in [P] *)
Definition settles {A} (m : M (globals V * St) A) (P : A -> Prop) : Prop :=
  forall st, unset st -> exists a st', m st = (Ret a, st') /\ P a /\ unset st'.
Lemma settles_bind {A B} (m : M (globals V * St) A) (f : A -> M (globals V * St) B) P R :
  settles m P -> (forall a, P a -> settles (f a) R) -> settles (bind m f) R.
Proof. intros Hm Hf st U. destruct (Hm st U) as (a & s & Es & Ha & U'). unfold bind. rewrite Es. apply (Hf a Ha s U'). Qed.
Lemma settles_ret {A} (a : A) (P : A -> Prop) : P a -> settles (ret a) P.
Proof. intros H st U. exists a, st. auto. Qed.
Lemma settles_right {A} (m : M St A) a : pure_to m a -> settles (right m) (eq a).
Proof.
  intros H st U. exists a, (snd (right m st)). pose proof (right_pure (S1 := globals V) m a H st) as Em. split; [|split; [reflexivity|]].
  - destruct (right m st). cbn in *. congruence.
  - unfold unset. rewrite right_keeps. exact U.
Qed.
Lemma settles_try {A} (m h : M (globals V * St) A) P : settles m P -> settles (try_bare m h) P.
Proof. intros H st U. destruct (H st U) as (a & s & Es & Ha & U'). exists a, s. unfold try_bare. rewrite Es. auto. Qed.
Lemma settles_weaken {A} (m : M (globals V * St) A) (P R : A -> Prop) : (forall a, P a -> R a) -> settles m P -> settles m R.
Proof. intros H Hm st U. destruct (Hm st U) as (a & s & Es & Ha & U'). exists a, s. auto. Qed.

Section Value.
Context {A : Type}.
Variable K : arithmetic A.
Variable den : V -> A.
Variable rho : pystr -> A.
Hypothesis F : faithful K V den rho [] (o_md5 _ O) O.
Hypothesis HP : forall s t, parse_text s = Found t -> o_parse _ O s = Ret t.
Hypothesis X : exact SP num.
Hypothesis HA : answers.
(** An object worth a rational number is a number to SymPy. *)
Hypothesis HN : forall v q, worth V den O v (of_Q K q) -> exists i, num (emb (LV v)) q i.

Lemma latex2sympy_settles n gap e q : depth = Datatypes.S n -> gap = [] \/ gap = [32%N] -> wf e -> value K rho e = of_Q K q ->
  settles (op_latex2sympy _ _ _ _ _ joined (body gap e)) (fun v => exists i, num v q i).
Proof.
  intros D G W Ev [g s] U. cbn [op_latex2sympy joined]. subst depth. unfold bind, left. cbn [fst snd].
  destruct (parse_body gap K V den rho [] (o_md5 _ O) e G W) as (t & Ht & R).
  assert (PR : o_parse _ O (prepare (body gap e)) = Ret (MRel (RExpr t))) by (rewrite (ArithPrep.prepare_latex gap G e W); apply HP, Ht).
  rewrite latex2sympy_head. unfold bind.
  destruct (head_rel Exact (body gap e) [] g g) as (s1 & s1' & Hh & _ & Rl & Hs1); [split; cbn; reflexivity|].
  assert (g_var s1 = []) as E'. { revert Hh. unfold head, bind, gets, set_frac, set_values. intros [= <-]. exact U. }
  rewrite Hh. unfold rest, bind, lift_res. rewrite PR. cbn [conv_rel].
  destruct (proj1 (conv_value K V den rho [] (o_md5 _ O) O F (latex2sympy O n)) t _ R s1 E' Hs1) as (v & s2 & -> & Wv & U2 & _).
  exists (emb (LV v)), (s2, s). split; [reflexivity|]. split; [|exact U2]. rewrite Ev in Wv. apply HN, Wv.
Qed.

(** What _sympy_parse returns *)
Definition readings_of (q : Q) (cs : list (option (pyval E Ob))) : Prop :=
  exists g i, num g q i /\ (cs = [Some g; None; None] \/ exists w p j, num w p j /\ (p == q)%Q /\ cs = [Some g; None; Some w]).
Lemma parse_settles n gap e q : depth = Datatypes.S n -> gap = [] \/ gap = [32%N] -> wf e -> value K rho e = of_Q K q -> python_agrees (body gap e) q ->
  settles (sympy_parse joined (body gap e)) (readings_of q).
Proof.
  intros D G W Ev PA. unfold sympy_parse.
  apply settles_bind with (P := fun o => exists g i, o = Some g /\ num g q i).
  { apply settles_try. eapply settles_bind; [exact (latex2sympy_settles n gap e q D G W Ev)|]. intros v [i Hv]. apply settles_ret. exists v, i. auto. }
  intros o (g & i & -> & Hg). apply settles_bind with (P := eq None); [apply settles_ret; reflexivity|]. intros ? <-.
  cbv zeta. apply settles_bind with (P := fun o => o = None \/ exists w p j, num w p j /\ (p == q)%Q /\ o = Some w).
  - destruct PA as [No|(w & p & j & Yes & Hw & Eq)].
    + intros st U. pose proof (right_outcome (S1 := globals V) _ _ No st) as [x Ex]. exists None, (snd (right (S1 := globals V) (op_parse_expr _ _ _ _ _ SP (replace (u "^") (u "**") (body gap e))) st)).
      pose proof (right_keeps (S1 := globals V) (op_parse_expr _ _ _ _ _ SP (replace (u "^") (u "**") (body gap e))) st) as Kp.
      split; [|split; [left; reflexivity|unfold unset; rewrite Kp; exact U]]. unfold try_bare, bind. cbn [op_parse_expr joined].
      destruct (right _ st) as [[y|y] s']; [discriminate Ex|reflexivity].
    + apply settles_try. eapply settles_bind; [exact (settles_right _ _ Yes)|]. intros ? <-.
      destruct (ex_expr _ _ X _ _ _ Hw) as (ew & -> & _).
      destruct (proj1 HA _ _ _ Hg) as [b Pb]. destruct (proj2 HA _ _ _ _ _ _ Hw Hg) as [b' Pb'].
      apply settles_bind with (P := fun o => o = None \/ o = Some (VExpr ew)).
      * eapply settles_bind; [exact (settles_right _ _ Pb)|]. intros ? <-. destruct b; [|apply settles_ret; right; reflexivity].
        eapply settles_bind; [exact (settles_right _ _ Pb')|]. intros ? <-. apply settles_ret. destruct b'; [left|right]; reflexivity.
      * intros o Ho. apply settles_ret. destruct Ho as [-> | ->]; [left; reflexivity|right]. exists (VExpr ew), p, j. auto.
  - intros o Ho. apply settles_ret. exists g, i. split; [exact Hg|]. destruct Ho as [->|(w & p & j & Hw & Eq & ->)]; [left; reflexivity|right].
    exists w, p, j. auto.
Qed.

Lemma scalar_close_eq q q' p p' : (q == q' -> p == p' -> scalar_close q p -> scalar_close q' p')%Q.
Proof.
  intros E1 E2. unfold scalar_close. intros [H|[[H1 H2]|[[H1 H2]|(H1 & H2 & H3)]]].
  - left. rewrite <- E1, <- E2. exact H.
  - right; left. rewrite <- E1, <- E2. auto.
  - right; right; left. rewrite <- E1, <- E2. auto.
  - right; right; right. rewrite <- E1, <- E2. auto.
Qed.
Lemma candidates_agree m q1 q2 c1 c2 : readings_of q1 c1 -> readings_of q2 c2 ->
  exists b, pure_to (any_gt (typed joined (equal_sympy joined (Datatypes.S m))) c1 c2) b /\ (b = true <-> scalar_close q1 q2).
Proof.
  intros (g1 & i1 & H1 & R1) (g2 & i2 & H2 & R2). pose proof (joined_exact X) as XJ.
  destruct (compare_exact joined num XJ m g1 q1 i1 g2 q2 i2 H1 H2) as (b & Pb & Hb). exists b. split; [|exact Hb].
  assert (AG : forall w1 p1 j1 w2 p2 j2, num w1 p1 j1 -> num w2 p2 j2 -> (p1 == q1)%Q -> (p2 == q2)%Q -> pure_to (typed joined (equal_sympy joined (Datatypes.S m)) w1 w2) b).
  { intros w1 p1 j1 w2 p2 j2 N1 N2 E1 E2. destruct (compare_exact joined num XJ m w1 p1 j1 w2 p2 j2 N1 N2) as (b' & Pb' & Hb').
    assert (b' = b) as <-; [|exact Pb']. apply eq_true_iff_eq. rewrite Hb, Hb'. split; apply scalar_close_eq; auto; symmetry; auto. }
  assert (ST : forall w1 l, (exists p1 j1, num w1 p1 j1 /\ (p1 == q1)%Q) ->
    (l = [Some g2; None; None] \/ exists w p j, num w p j /\ (p == q2)%Q /\ l = [Some g2; None; Some w]) -> pure_to (any_gv (typed joined (equal_sympy joined (Datatypes.S m))) w1 l) b).
  { intros w1 l (p1 & j1 & N1 & E1) Hl.
    assert (A0 := AG w1 p1 j1 g2 q2 i2 N1 H2 E1 (Qeq_refl _)).
    destruct Hl as [->|(w & p & j & Nw & Ew & ->)]; cbn [any_gv]; (eapply pure_bind; [exact A0|]); destruct b; try apply pure_ret.
    eapply pure_bind; [exact (AG w1 p1 j1 w p j N1 Nw E1 Ew)|]. apply pure_ret. }
  assert (A1 := ST g1 c2 (ex_intro _ q1 (ex_intro _ i1 (conj H1 (Qeq_refl _)))) R2).
  destruct R1 as [->|(w & p & j & Nw & Ew & ->)]; cbn [any_gt]; (eapply pure_bind; [exact A1|]); destruct b; try apply pure_ret.
  eapply pure_bind; [exact (ST w c2 (ex_intro _ p (ex_intro _ j (conj Nw Ew))) R2)|]. apply pure_ret.
Qed.
Lemma simplify_verdict n m e1 e2 q1 q2 st : depth = Datatypes.S n -> wf e1 -> wf e2 -> value K rho e1 = of_Q K q1 -> value K rho e2 = of_Q K q2 ->
  python_agrees (tight e1) q1 -> python_agrees (tight e2) q2 -> unset st ->
  exists b, fst (are_equal_with_simplify joined (Datatypes.S m) (tight e1) (tight e2) st) = Ret b /\ (b = true <-> scalar_close q1 q2).
Proof.
  intros D W1 W2 V1 V2 A1 A2 U. unfold are_equal_with_simplify.
  destruct (parse_settles n [] e1 q1 D (or_introl eq_refl) W1 V1 A1 st U) as (c1 & s1 & E1 & R1 & U1).
  destruct (parse_settles n [] e2 q2 D (or_introl eq_refl) W2 V2 A2 s1 U1) as (c2 & s2 & E2 & R2 & U2).
  rewrite (bind_step _ _ _ _ _ E1), (bind_step _ _ _ _ _ E2). destruct (candidates_agree m q1 q2 c1 c2 R1 R2) as (b & Pb & Hb). exists b. split; [apply Pb|exact Hb].
Qed.
(** The same text has one value. *)
Lemma same_text n e1 e2 q1 q2 (st : globals V * St) : depth = Datatypes.S n -> wf e1 -> wf e2 -> value K rho e1 = of_Q K q1 -> value K rho e2 = of_Q K q2 -> unset st ->
  tight e1 = tight e2 -> scalar_close q1 q2.
Proof.
  intros D W1 W2 V1 V2 U E'.
  destruct (latex2sympy_settles n [] e1 q1 D (or_introl eq_refl) W1 V1 st U) as (v1 & s1 & E1 & [i1 N1] & _).
  destruct (latex2sympy_settles n [] e2 q2 D (or_introl eq_refl) W2 V2 st U) as (v2 & s2 & E2 & [i2 N2] & _).
  change (body [] e1) with (tight e1) in E1. change (body [] e2) with (tight e2) in E2. rewrite E', E2 in E1. injection E1 as -> _.
  destruct (compare_exact SP num X 0 v1 q1 i1 v1 q1 i1 N1 N1) as (b & Pb & Hb). destruct (compare_exact SP num X 0 v1 q1 i1 v1 q2 i2 N1 N2) as (b' & Pb' & Hb').
  apply Hb'. specialize (Pb (snd st)). specialize (Pb' (snd st)). rewrite Pb in Pb'. injection Pb' as <-. apply Hb. left. reflexivity.
Qed.

(** ** is_equiv on two numbers *)
Context {V' S : Type}.
Variable IS : ISympy (globals V * St) V' S.
Variable cmp : S -> S -> M (globals V * St) bool.
Variable ints : pystr -> pystr.
Variable iter : list pystr -> list pystr.
Variable iter_ok : forall l, Permutation (iter l) (nodup str_eq_dec l).
Variable lhs : pystr -> M (globals V * St) unit.
(** A text whose normal form is the text of [e] without spaces *)
Definition answer (s : pystr) (e : arith) : Prop := wf e /\ LatexForm.plain e /\ strip s = s /\ string_normalize ints s = NStr (tight e).
Lemma written_answer e s : wf e -> LatexForm.plain e -> literal e = false -> written e s -> answer s e.
Proof. intros W P L H. destruct (written_normal ints e s W P L H) as [N Q]. split; [exact W|]. split; [exact P|]. split; [exact Q|exact N]. Qed.
Theorem numbers_verdict n m k e1 e2 s1 s2 q1 q2 st : depth = Datatypes.S n -> answer s1 e1 -> answer s2 e2 ->
  value K rho e1 = of_Q K q1 -> value K rho e2 = of_Q K q2 -> python_agrees (tight e1) q1 -> python_agrees (tight e2) q2 -> unset st ->
  exists b, fst (is_equiv (with_intervals IS cmp ints iter iter_ok (are_equal_with_simplify joined (Datatypes.S m)) lhs) (Datatypes.S k) (Some s1) (Some s2) st) = Ret b /\
    (b = true <-> scalar_close q1 q2).
Proof.
  intros D (W1 & P1 & T1 & N1) (W2 & P2 & T2 & N2) V1 V2 A1 A2 U. cbn [is_equiv is_equiv_str]. unfold is_equiv_body.
  rewrite T1, T2. cbn [int_str with_intervals]. cbv zeta. rewrite N1, N2.
  destruct (str_eqb s1 s2) eqn:Es.
  - exists true. split; [reflexivity|]. split; [intros _|reflexivity]. apply (same_text n e1 e2 q1 q2 st D W1 W2 V1 V2 U).
    apply str_eqb_eq in Es. subst s2. rewrite N1 in N2. injection N2 as ->. reflexivity.
  - destruct (str_eqb (tight e1) (tight e2)) eqn:Et.
    + exists true. split; [reflexivity|]. split; [intros _|reflexivity]. apply (same_text n e1 e2 q1 q2 st D W1 W2 V1 V2 U). apply str_eqb_eq, Et.
    + rewrite (single_decided IS cmp ints iter iter_ok _ lhs _ _ _ st (tight_single e1 W1 P1) (tight_single e2 W2 P2)).
      destruct (simplify_verdict n m e1 e2 q1 q2 st D W1 W2 V1 V2 A1 A2 U) as (b & Eb & Hb). exists b. split; [|exact Hb].
      unfold are_equal_under_sympy, try_bare, bind. cbn [equal_with_simplify with_intervals].
      destruct (are_equal_with_simplify joined (Datatypes.S m) (tight e1) (tight e2) st) as [r s]. cbn [fst] in Eb. subst r. reflexivity.
Qed.
End Value.
End Join.
