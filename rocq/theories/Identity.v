(** Identities: two written expressions that agree wherever they are evaluated are accepted. *)
From Coq Require Import String List NArith ZArith QArith Bool Lia Arith Permutation.
From Verif Require Import PyStr PyStrTheory Normalize Monad MonadTheory Split Eval Interval IntervalEval Grammar Parser ParserTheory ParserNum
  L2S L2STheory L2SState L2SValue Arith ArithParse LatexForm Answer ParserMore Pipeline Pair.
Import ListNotations.
Local Open Scope mon_scope.
Local Close Scope Q_scope.

Lemma outcome_raise {St B C} (m : M St B) (f : B -> M St C) : outcome m None -> outcome (bind m f) None.
Proof. intros H st. destruct (H st) as [e Q]. exists e. unfold bind. destruct (m st) as [[]]; [discriminate|]. cbn in Q |- *. congruence. Qed.
Lemma outcome_step {St B C} (m : M St B) (f : B -> M St C) b o : pure_to m b -> outcome (f b) o -> outcome (bind m f) o.
Proof.
  intros H Hf. destruct o as [c|]; cbn [outcome] in *; [eapply pure_bind; eassumption|].
  intro st. specialize (H st). unfold bind. destruct (m st) as [r s]. cbn in H. subst r. apply Hf.
Qed.

(** ** A back end with symbols *)
Section Symbolic.
Context {St E Ob Sym Num A : Type}.
Variable SP : Sympy St E Ob Sym Num.
Notation val := (pyval E Ob).
Notation name := (op_sym_name _ _ _ _ _ SP).
(** [expr v f o]: the object [v] is the function [f] of an assignment, and its symbols are those in [o];
    [number w a]: the object [w] is the number [a]; [drawn n]: random.randint may give [n], which is [real n];
    [defined a]: [a] is a number *)
Variable expr : val -> ((pystr -> A) -> A) -> (pystr -> bool) -> Prop.
Variable number : val -> A -> Prop.
Variable drawn : Num -> Prop.
Variable real : Num -> A.
Variable defined : A -> Prop.
(** an assignment of drawn numbers *)
Definition in_range (rho : pystr -> A) : Prop := forall x, exists n, drawn n /\ rho x = real n.
(** zero, or no number *)
Definition harmless (z : val) : Prop :=
  exists e, z = VExpr e /\ (pure_to (op_eq0 _ _ _ _ _ SP z) true \/
    pure_to (op_eq0 _ _ _ _ _ SP z) false /\ exists b, pure_to (op_is_zero _ _ _ _ _ SP z) b /\ (b <> Some true -> pure_to (op_is_number _ _ _ _ _ SP z) false)).
Record symbolic : Prop := {
  sy_expr : forall v f o, expr v f o -> exists e, v = VExpr e /\ pure_to (op_has_I _ _ _ _ _ SP e) false;
  sy_symbols : forall v f o, expr v f o -> exists fs, pure_to (op_free_symbols _ _ _ _ _ SP v) fs /\ NoDup (map name fs) /\ forall x, In x (map name fs) <-> o x = true;
  sy_same : forall f1 f2, (forall x, In x (map name f1) <-> In x (map name f2)) -> op_same_symbols _ _ _ _ _ SP f1 f2 = true;
  sy_number : forall v f o x, expr v f o -> o x = true -> pure_to (op_is_number _ _ _ _ _ SP v) false;
  sy_evalf : forall v f o env rho, expr v f o -> (forall x, o x = true -> In x (map name (map fst env))) ->
    (forall s n, In (s, n) env -> rho (name s) = real n) -> in_range rho -> defined (f rho) ->
    exists w, pure_to (op_evalf _ _ _ _ _ SP v env) w /\ number w (f rho);
  sy_zero : forall w1 w2 a, number w1 a -> number w2 a -> w1 <> VNone /\ w2 <> VNone /\
    exists e, pure_to (op_sub _ _ _ _ _ SP w1 w2) (VExpr e) /\ pure_to (op_eq0 _ _ _ _ _ SP (VExpr e)) true;
  sy_rng : forall st, exists n st', op_rng _ _ _ _ _ SP RandInt st = (Ret n, st') /\ drawn n;
  (* expand and simplify may answer anything or raise; the difference of equal functions is not taken for a number other than zero *)
  sy_expand : forall v f o w g o', expr v f o -> expr w g o' -> exists x, outcome (op_expand_equal _ _ _ _ _ SP v w) x;
  sy_sub : forall v f o w g o', expr v f o -> expr w g o' -> (forall rho, in_range rho -> f rho = g rho) ->
    outcome (op_sub _ _ _ _ _ SP v w) None \/ exists e b z, pure_to (op_sub _ _ _ _ _ SP v w) (VExpr e) /\ pure_to (op_is_number _ _ _ _ _ SP (VExpr e)) b /\
      outcome (if b then op_evalf _ _ _ _ _ SP (VExpr e) [] else op_simplify _ _ _ _ _ SP (VExpr e)) z /\ match z with None => True | Some z => harmless z end
}.
Hypothesis Y : symbolic.

(** the assignment of a draw *)
Fixpoint assigned (env : list (Sym * Num)) (d : Num) (x : pystr) : A :=
  match env with [] => real d | (s, n) :: env' => if str_eqb (name s) x then real n else assigned env' d x end.
Lemma assigned_in env d : NoDup (map name (map fst env)) -> forall s n, In (s, n) env -> assigned env d (name s) = real n.
Proof.
  induction env as [|[s' n'] env IH]; intros ND s n H; [destruct H|]. cbn [map fst] in ND. inversion ND as [|? ? Nin ND']; subst. cbn [assigned]. destruct H as [[= <- <-]|H].
  - rewrite str_eqb_refl. reflexivity.
  - destruct (str_eqb (name s') (name s)) eqn:Q; [|apply IH; assumption]. exfalso. apply Nin. apply str_eqb_eq in Q. rewrite Q. apply (in_map fst), (in_map name) in H. exact H.
Qed.
Lemma assigned_range env d : drawn d -> Forall drawn (map snd env) -> in_range (assigned env d).
Proof.
  intros D F x. induction env as [|[s n] env IH]; [exists d; split; [exact D|reflexivity]|]. inversion F; subst. cbn [assigned].
  destruct (str_eqb (name s) x); [exists n; split; [assumption|reflexivity]|apply IH; assumption].
Qed.
Lemma draw_range syms : forall st, exists env st', draw SP RandInt syms st = (Ret env, st') /\ map fst env = syms /\ Forall drawn (map snd env).
Proof.
  induction syms as [|s syms IH]; intro st; [exists [], st; repeat split; constructor|].
  destruct (sy_rng Y st) as (x & s1 & E1 & D). destruct (IH s1) as (env & s2 & E2 & M2 & F). exists ((s, x) :: env), s2. split; [|split; [cbn; congruence|constructor; assumption]].
  cbn [draw]. rewrite (bind_step _ _ _ _ _ E1), (bind_step _ _ _ _ _ E2). reflexivity.
Qed.
(** agree wherever they are evaluated *)
Definition agree (f g : (pystr -> A) -> A) : Prop := forall rho, in_range rho -> f rho = g rho /\ defined (f rho).
Lemma draws_agree v f o w g o' fs : expr v f o -> expr w g o' -> (forall x, o x = o' x) -> agree f g -> fs <> [] -> NoDup (map name fs) ->
  (forall x, In x (map name fs) <-> o x = true) -> forall n, pure_to (sample SP RandInt v w fs n) true.
Proof.
  intros Hv Hw Ho Hfg Nf ND Hfs. destruct (sy_expr Y _ _ _ Hv) as (e1 & -> & _). destruct (sy_expr Y _ _ _ Hw) as (e2 & -> & _).
  induction n as [|n IH]; [apply pure_ret|]. intro st. cbn [sample].
  destruct (draw_range fs st) as (env & s1 & E1 & M1 & F). rewrite (bind_step _ _ _ _ _ E1). clear E1. revert s1.
  destruct env as [|[s0 d] env']; [destruct Nf; rewrite <- M1; reflexivity|]. set (env := (s0, d) :: env') in *.
  assert (D : drawn d) by (inversion F; assumption). pose proof (assigned_range env d D F) as R. destruct (Hfg _ R) as [Eq Df].
  assert (AI := assigned_in env d ltac:(rewrite M1; exact ND)).
  destruct (sy_evalf Y _ _ _ env (assigned env d) Hv) as (a & Pa & Na); [intros x Hx; rewrite M1; apply Hfs, Hx|exact AI|exact R|exact Df|].
  destruct (sy_evalf Y _ _ _ env (assigned env d) Hw) as (b & Pb & Nb); [intros x Hx; rewrite M1; apply Hfs; rewrite Ho; exact Hx|exact AI|exact R|rewrite <- Eq; exact Df|].
  rewrite <- Eq in Nb. destruct (sy_zero Y _ _ _ Na Nb) as (Ea & Eb & e & Pd & Pz).
  eapply pure_bind; [unfold sympy_evalf; cbn [attr]; apply pure_try_except, Pa|].
  eapply pure_bind; [unfold sympy_evalf; cbn [attr]; apply pure_try_except, Pb|].
  assert (K : pure_to (d0 <- op_sub _ _ _ _ _ SP a b ;; r <- diff_equal SP a d0 ;; r <- as_bool r ;; if r then sample SP RandInt (VExpr e1) (VExpr e2) fs n else ret false) true).
  { eapply pure_bind; [exact Pd|]. eapply pure_bind; [apply diff_zero; eapply pure_bind; [exact Pz|apply pure_ret]|]. eapply pure_bind; [apply pure_ret|]. exact IH. }
  destruct a; try congruence; destruct b; try congruence; exact K.
Qed.
Lemma numerical_agrees v f o w g o' : expr v f o -> expr w g o' -> (forall x, o x = o' x) -> agree f g -> (exists x, o x = true) ->
  pure_to (numerical_equal SP RandInt v w) true.
Proof.
  intros Hv Hw Ho Hfg [x Hx]. destruct (sy_expr Y _ _ _ Hv) as (e1 & E1 & _). destruct (sy_expr Y _ _ _ Hw) as (e2 & E2 & _).
  destruct (sy_symbols Y _ _ _ Hv) as (f1 & P1 & ND & O1). destruct (sy_symbols Y _ _ _ Hw) as (f2 & P2 & _ & O2).
  unfold numerical_equal. eapply pure_bind; [rewrite E1; cbn [attr]; rewrite <- E1; exact P1|]. eapply pure_bind; [rewrite E2; cbn [attr]; rewrite <- E2; exact P2|].
  rewrite (sy_same Y f1 f2) by (intro y; rewrite O1, O2, Ho; tauto). cbn [negb].
  eapply draws_agree; try eassumption. intros ->. apply O1 in Hx. destruct Hx.
Qed.
Lemma simplify_outcome e b z : pure_to (op_is_number _ _ _ _ _ SP (VExpr e)) b -> outcome (if b then op_evalf _ _ _ _ _ SP (VExpr e) [] else op_simplify _ _ _ _ _ SP (VExpr e)) z ->
  outcome (sympy_simplify SP (VExpr e)) z.
Proof.
  intros Pb Pz.
   unfold sympy_simplify. cbn [attr]. destruct z as [z|]; cbn [outcome] in *.
      - apply pure_try_except. eapply pure_bind; [exact Pb|]. exact Pz.
      - intro st. unfold try_except, bind. pose proof (Pb st) as Pb'. destruct (op_is_number _ _ _ _ _ SP (VExpr e) st) as [r s]. cbn in Pb'. subst r.
        destruct (Pz s) as [x Ex]. set (q := if b then op_evalf _ _ _ _ _ SP (VExpr e) [] else op_simplify _ _ _ _ _ SP (VExpr e)) in *. destruct (q s) as [r s']. cbn in Ex. subst r. destruct (is_Exception x); eexists; reflexivity.
Qed.
(** the second stage says yes, or nothing *)
Lemma difference_harmless v f o w g o' : expr v f o -> expr w g o' -> (forall rho, in_range rho -> f rho = g rho) ->
  exists d, outcome (w0 <- op_sub _ _ _ _ _ SP v w ;; s <- sympy_simplify SP w0 ;; diff_equal SP v s) d /\ d <> Some None.
Proof.
  intros Hv Hw Hfg. destruct (sy_sub Y _ _ _ _ _ _ Hv Hw Hfg) as [R|(e & b & z & Pd & Pb & Pz & H)].
  - exists None. split; [|discriminate]. apply outcome_raise, R.
  - pose proof (simplify_outcome e b z Pb Pz) as Sz.
    destruct z as [z|]; [|exists None; split; [|discriminate]; eapply outcome_step; [exact Pd|]; apply outcome_raise, Sz].
    destruct H as (ez & -> & Hz). assert (exists r, pure_to (diff_equal SP v (VExpr ez)) (Some r)) as [r Pr].
    { unfold diff_equal. destruct Hz as [Z|(Z & b' & Zb & Nb)].
      - exists true. eapply pure_bind; [eapply pure_bind; [exact Z|apply pure_ret]|apply pure_ret].
      - destruct b' as [[|]|].
        + exists true. eapply pure_bind; [eapply pure_bind; [exact Z|eapply pure_bind; [exact Zb|apply pure_ret]]|apply pure_ret].
        + exists false. eapply pure_bind; [eapply pure_bind; [exact Z|eapply pure_bind; [exact Zb|apply pure_ret]]|]. cbv iota. cbn [attr].
          eapply pure_bind; [apply Nb; discriminate|apply pure_ret].
        + exists false. eapply pure_bind; [eapply pure_bind; [exact Z|eapply pure_bind; [exact Zb|apply pure_ret]]|]. cbv iota. cbn [attr].
          eapply pure_bind; [apply Nb; discriminate|apply pure_ret]. }
    exists (Some (Some r)). split; [|discriminate]. eapply outcome_step; [exact Pd|]. eapply outcome_step; [exact Sz|]. exact Pr.
Qed.
Theorem identity_accepted n v f o w g o' : expr v f o -> expr w g o' -> (forall x, o x = o' x) -> agree f g -> (exists x, o x = true /\ x <> u "i") ->
  pure_to (compare SP (Datatypes.S n) v w) true.
Proof.
  intros Hv Hw Ho Hfg (x & Hx & Ni).
  destruct (sy_expr Y _ _ _ Hv) as (e1 & E1 & I1). destruct (sy_expr Y _ _ _ Hw) as (e2 & E2 & I2).
  destruct (sy_symbols Y _ _ _ Hv) as (f1 & F1 & ND1 & O1). destruct (sy_symbols Y _ _ _ Hw) as (f2 & F2 & ND2 & O2).
  destruct (sy_expand Y _ _ _ _ _ _ Hv Hw) as (ex & X). destruct (difference_harmless _ _ _ _ _ _ Hv Hw (fun rho H => proj1 (Hfg rho H))) as (d & D & Nd).
  pose proof (sy_number Y _ _ _ x Hv Hx) as N1. assert (Hx' := Hx). rewrite Ho in Hx'. pose proof (sy_number Y _ _ _ x Hw Hx') as N2.
  pose proof (numerical_agrees _ _ _ _ _ _ Hv Hw Ho Hfg (ex_intro _ x Hx)) as R1. subst v w.
  assert (G1 : f1 <> []) by (intros ->; apply O1 in Hx; destruct Hx). assert (G2 : f2 <> []) by (intros ->; apply O2 in Hx'; destruct Hx').
  assert (K : pure_to (compare SP (Datatypes.S n) (VExpr e1) (VExpr e2)) (said ex || holds d || true)).
  { apply (stages_int SP n e1 e2 f1 f2 ex d); try assumption.
    intros s Hs. split; intros ->; [apply O1 in Hx|apply O2 in Hx']; cbn in *; intuition congruence. }
  rewrite orb_true_r in K. exact K.
Qed.
(** *** Rejection *)
(** SymPy proves no false equation: expansion to the same terms, or a difference simplified to a number. *)
Variable minus : A -> A -> A.
Definition unlike (f g : (pystr -> A) -> A) : Prop := (exists rho, f rho <> g rho) /\ forall c, exists rho, minus (f rho) (g rho) <> c.
Record sound : Prop := {
  so_expand : forall v f o w g o', expr v f o -> expr w g o' -> exists x, outcome (op_expand_equal _ _ _ _ _ SP v w) x /\ (x = Some true -> forall rho, f rho = g rho);
  so_sub : forall v f o w g o', expr v f o -> expr w g o' -> unlike f g ->
    outcome (op_sub _ _ _ _ _ SP v w) None \/ exists e b z, pure_to (op_sub _ _ _ _ _ SP v w) (VExpr e) /\ pure_to (op_is_number _ _ _ _ _ SP (VExpr e)) b /\
      outcome (if b then op_evalf _ _ _ _ _ SP (VExpr e) [] else op_simplify _ _ _ _ _ SP (VExpr e)) z /\
      match z with None => True | Some z => exists e b, z = VExpr e /\ pure_to (op_eq0 _ _ _ _ _ SP z) false /\ pure_to (op_is_zero _ _ _ _ _ SP z) b /\ b <> Some true /\ pure_to (op_is_number _ _ _ _ _ SP z) false end;
  so_same : forall f1 f2, op_same_symbols _ _ _ _ _ SP f1 f2 = true -> forall x, In x (map name f1) <-> In x (map name f2)
}.
Hypothesis Z : sound.
Lemma difference_not_zero v f o w g o' : expr v f o -> expr w g o' -> unlike f g ->
  exists d, outcome (w0 <- op_sub _ _ _ _ _ SP v w ;; s <- sympy_simplify SP w0 ;; diff_equal SP v s) d /\ d <> Some None /\ holds d = false.
Proof.
  intros Hv Hw Hfg. destruct (so_sub Z _ _ _ _ _ _ Hv Hw Hfg) as [R|(e & b & z & Pd & Pb & Pz & H)].
  - exists None. split; [|split; [discriminate|reflexivity]]. apply outcome_raise, R.
  - pose proof (simplify_outcome e b z Pb Pz) as Sz.
    destruct z as [z|]; [|exists None; split; [|split; [discriminate|reflexivity]]; eapply outcome_step; [exact Pd|]; apply outcome_raise, Sz].
    destruct H as (ez & b' & -> & Z0 & Zb & Nb & Nn). exists (Some (Some false)). split; [|split; [discriminate|reflexivity]].
    eapply outcome_step; [exact Pd|]. eapply outcome_step; [exact Sz|]. cbn [outcome]. unfold diff_equal.
    eapply pure_bind; [eapply pure_bind; [exact Z0|eapply pure_bind; [exact Zb|apply pure_ret]]|].
    destruct b' as [[|]|]; [destruct Nb; reflexivity| |]; cbv iota; cbn [attr]; (eapply pure_bind; [exact Nn|apply pure_ret]).
Qed.
Theorem symbols_rejected n v f o w g o' : expr v f o -> expr w g o' -> (exists x, o x <> o' x) -> unlike f g ->
  (exists x, o x = true /\ x <> u "i") -> (exists x, o' x = true /\ x <> u "i") -> pure_to (compare SP (Datatypes.S n) v w) false.
Proof.
  intros Hv Hw (d0 & D0) Hfg (x & Hx & Ni) (y & Hy & Nj).
  destruct (sy_expr Y _ _ _ Hv) as (e1 & E1 & I1). destruct (sy_expr Y _ _ _ Hw) as (e2 & E2 & I2).
  destruct (sy_symbols Y _ _ _ Hv) as (f1 & F1 & ND1 & O1). destruct (sy_symbols Y _ _ _ Hw) as (f2 & F2 & ND2 & O2).
  destruct (so_expand Z _ _ _ _ _ _ Hv Hw) as (ex & X & Xs). destruct (difference_not_zero _ _ _ _ _ _ Hv Hw Hfg) as (d & D & Nd & Hd).
  pose proof (sy_number Y _ _ _ x Hv Hx) as N1. pose proof (sy_number Y _ _ _ y Hw Hy) as N2. subst v w.
  assert (G1 : f1 <> []) by (intros ->; apply O1 in Hx; destruct Hx). assert (G2 : f2 <> []) by (intros ->; apply O2 in Hy; destruct Hy).
  assert (R : forall r, pure_to (numerical_equal SP r (VExpr e1) (VExpr e2)) false).
  { intro r. unfold numerical_equal. cbn [attr]. eapply pure_bind; [exact F1|]. eapply pure_bind; [exact F2|].
    destruct (op_same_symbols _ _ _ _ _ SP f1 f2) eqn:Q; [|apply pure_ret]. destruct D0. apply eq_true_iff_eq. rewrite <- O1, <- O2. apply (so_same Z _ _ Q). }
  assert (K : pure_to (compare SP (Datatypes.S n) (VExpr e1) (VExpr e2)) (said ex || holds d || false || false)).
  { apply (stages SP n e1 e2 f1 f2 ex d false false); try assumption; try apply R.
    intros s Hs. split; intros ->; [apply O1 in Hx|apply O2 in Hy]; cbn in *; intuition congruence. }
  rewrite Hd, !orb_false_r in K. destruct ex as [[|]|]; try exact K. destruct Hfg as [[rho C] _]. destruct C. apply Xs. reflexivity.
Qed.
End Symbolic.

(** ** Joined with latex2sympy *)
Section Joined.
Context {V St E Ob Sym Num A : Type}.
Variable O : LSympy V.
Variable depth : nat.
Variable emb : lv V -> pyval E Ob.
Variable SP : Sympy St E Ob Sym Num.
Variable expr : pyval E Ob -> ((pystr -> A) -> A) -> (pystr -> bool) -> Prop.
Variable number : pyval E Ob -> A -> Prop.
Variable drawn : Num -> Prop.
Variable real : Num -> A.
Variable defined : A -> Prop.
Lemma joined_symbolic : symbolic SP expr number drawn real defined -> symbolic (joined O depth emb SP) expr number drawn real defined.
Proof.
  intros [X1 X2 X3 X4 X5 X6 X7 X8 X9]. split; cbn.
  - intros v f o H. destruct (X1 v f o H) as (e & -> & P). exists e. split; [reflexivity|apply right_pure, P].
  - intros v f o H. destruct (X2 v f o H) as (fs & P & R). exists fs. split; [apply right_pure, P|exact R].
  - exact X3.
  - intros v f o x H Hx. apply right_pure, (X4 v f o x H Hx).
  - intros v f o env rho H H1 H2 H3 H4. destruct (X5 v f o env rho H H1 H2 H3 H4) as (w & P & N). exists w. split; [apply right_pure, P|exact N].
  - intros w1 w2 a H1 H2. destruct (X6 w1 w2 a H1 H2) as (N1 & N2 & e & P & Z). split; [exact N1|]. split; [exact N2|]. exists e. split; apply right_pure; assumption.
  - intros [g st]. destruct (X7 st) as (n & st' & Es & D). exists n, (g, st'). unfold right. cbn [snd fst]. rewrite Es. auto.
  - intros v f o w g o' H H'. destruct (X8 v f o w g o' H H') as (x & Hx). exists x. apply right_outcome, Hx.
  - intros v f o w g o' H H' Hfg. destruct (X9 v f o w g o' H H' Hfg) as [R|(e & b & z & P1 & P2 & P3 & Hz)]; [left; exact (right_outcome _ None R)|right].
    exists e, b, z. split; [apply right_pure, P1|]. split; [apply right_pure, P2|]. split; [destruct b; apply right_outcome, P3|].
    destruct z as [z|]; [|exact I]. destruct Hz as (ez & -> & Hz). exists ez. split; [reflexivity|]. destruct Hz as [Z|(Z & c & Zc & Nc)]; [left; apply right_pure, Z|right].
    split; [apply right_pure, Z|]. exists c. split; [apply right_pure, Zc|]. intro H0. apply right_pure, Nc, H0.
Qed.

Variable K : arithmetic A.
(** [den rho v]: the value of the object under [rho]; [occ x v]: whether it has the symbol [x] *)
Variable den : (pystr -> A) -> V -> A.
Variable occ : pystr -> V -> bool.
Hypothesis F : forall rho, faithful K V (den rho) rho [] (o_md5 _ O) O.
Hypothesis HP : forall s t, parse_text s = Found t -> o_parse _ O s = Ret t.
Hypothesis Y : symbolic SP expr number drawn real defined.
(** An object with these values and these symbols is an expression to SymPy. *)
Hypothesis HE : forall v f o, (forall rho, worth V (den rho) O v (f rho)) -> (forall x, occ x v = o x) -> expr (emb (LV v)) f o.
(** The object latex2sympy reads has the symbols [o]. *)
Definition has_symbols (s : pystr) (o : pystr -> bool) : Prop :=
  forall g g' v, g_var g = [] -> latex2sympy O depth s [] g = (Ret (LV v), g') -> forall x, occ x v = o x.

Lemma latex_object n gap e g : depth = Datatypes.S n -> gap = [] \/ gap = [32%N] -> wf e -> g_var g = [] ->
  exists v g', latex2sympy O depth (body gap e) [] g = (Ret (LV v), g') /\ g_var g' = [] /\ forall rho, worth V (den rho) O v (value K rho e).
Proof.
  intros D G W U.
  assert (forall rho, exists v g', latex2sympy O depth (body gap e) [] g = (Ret (LV v), g') /\ g_var g' = [] /\ worth V (den rho) O v (value K rho e)) as Each.
  { intro rho. rewrite D. destruct (parse_body gap K V (den rho) rho [] (o_md5 _ O) e G W) as (t & Ht & R).
    assert (PR : o_parse _ O (prepare (body gap e)) = Ret (MRel (RExpr t))) by (rewrite (ArithPrep.prepare_latex gap G e W); apply HP, Ht).
    rewrite latex2sympy_head. unfold bind.
    destruct (head_rel Exact (body gap e) [] g g) as (s1 & s1' & Hh & _ & Rl & Hs1); [split; cbn; reflexivity|].
    assert (g_var s1 = []) as E'. { revert Hh. unfold head, bind, gets, set_frac, set_values. intros [= <-]. exact U. }
    rewrite Hh. unfold rest, bind, lift_res. rewrite PR. cbn [conv_rel].
    destruct (proj1 (conv_value _ V _ _ [] (o_md5 _ O) O (F rho) (latex2sympy O n)) t _ R s1 E' Hs1) as (v & s2 & -> & Wv & U2 & _).
    exists v, s2. auto. }
  destruct (Each (fun _ => of_Q K 0)) as (v & g' & Ev & U' & _). exists v, g'. split; [exact Ev|]. split; [exact U'|].
  intro rho. destruct (Each rho) as (v' & g'' & Ev' & _ & Wv). rewrite Ev in Ev'. injection Ev' as <- <-. exact Wv.
Qed.
Lemma object_settles n gap e o : depth = Datatypes.S n -> gap = [] \/ gap = [32%N] -> wf e -> has_symbols (body gap e) o ->
  settles (op_latex2sympy _ _ _ _ _ (joined O depth emb SP) (body gap e)) (fun v => expr v (fun rho => value K rho e) o).
Proof.
  intros D G W HS [g s] U. cbn [op_latex2sympy joined]. unfold bind, left. cbn [fst snd].
  destruct (latex_object n gap e g D G W U) as (v & g' & Ev & U' & Wv). rewrite Ev. exists (emb (LV v)), (g', s). split; [reflexivity|]. split; [|exact U'].
  apply HE; [exact Wv|exact (HS g g' v U Ev)].
Qed.
(** The first candidate of _sympy_parse *)
Definition first_reading (e : arith) (o : pystr -> bool) (cs : list (option (pyval E Ob))) : Prop :=
  exists g rest, cs = Some g :: rest /\ expr g (fun rho => value K rho e) o.
Definition safe {B} (m : M (globals V * St) B) : Prop := forall st, unset st -> unset (snd (m st)).
Lemma safe_right {B} (m : M St B) : safe (right m).
Proof. intros st U. unfold unset. rewrite right_keeps. exact U. Qed.
Lemma safe_ret {B} (b : B) : safe (ret b).
Proof. intros st U. exact U. Qed.
Lemma safe_bind {B C} (m : M (globals V * St) B) (f : B -> M (globals V * St) C) : safe m -> (forall b, safe (f b)) -> safe (bind m f).
Proof. intros Hm Hf st U. unfold bind. specialize (Hm st U). destruct (m st) as [[b|b] s]; [apply Hf, Hm|exact Hm]. Qed.
Lemma first_settles n gap e o : depth = Datatypes.S n -> gap = [] \/ gap = [32%N] -> wf e -> has_symbols (body gap e) o -> settles (sympy_parse (joined O depth emb SP) (body gap e)) (first_reading e o).
Proof.
  intros D G W HS. unfold sympy_parse.
  apply settles_bind with (P := fun og => exists g, og = Some g /\ expr g (fun rho => value K rho e) o).
  { apply settles_try. eapply settles_bind; [exact (object_settles n gap e o D G W HS)|]. intros v Hv. apply settles_ret. exists v. auto. }
  intros og (g & -> & Hg). apply settles_bind with (P := eq None); [apply settles_ret; reflexivity|]. intros ? <-. cbv zeta.
  apply settles_bind with (P := fun _ => True).
  2:{ intros p _. apply settles_ret. exists g. eexists. split; [reflexivity|exact Hg]. }
  (* whatever Python's own reading does, it ends inside the try *)
  intros st U. set (m := bind _ _). assert (safe m) as Sm.
  { apply safe_bind; [apply safe_right|]. intro v. apply safe_bind; [|intro; apply safe_ret].
    apply safe_bind; [apply safe_right|]. intros [|]; [|apply safe_ret]. apply safe_bind; [apply safe_right|intro; apply safe_ret]. }
  specialize (Sm st U). unfold try_bare. destruct (m st) as [[a|a] s]; [exists a, s|exists None, s]; auto.
Qed.

(** ** Different symbols *)
Lemma joined_sound minus : sound SP expr minus -> sound (joined O depth emb SP) expr minus.
Proof.
  intros [X1 X2 X3]. split; cbn.
  - intros v f o w g o' H H'. destruct (X1 v f o w g o' H H') as (x & Hx & Hs). exists x. split; [apply right_outcome, Hx|exact Hs].
  - intros v f o w g o' H H' Hfg. destruct (X2 v f o w g o' H H' Hfg) as [R|(e & b & z & P1 & P2 & P3 & Hz)]; [left; exact (right_outcome _ None R)|right].
    exists e, b, z. split; [apply right_pure, P1|]. split; [apply right_pure, P2|]. split; [destruct b; apply right_outcome, P3|].
    destruct z as [z|]; [|exact I]. destruct Hz as (ez & c & -> & Z0 & Zc & Nc & Nn). exists ez, c. split; [reflexivity|]. split; [apply right_pure, Z0|].
    split; [apply right_pure, Zc|]. split; [exact Nc|apply right_pure, Nn].
  - exact X3.
Qed.
(** SymPy's own parser rejects the text, or reads the same expression. *)
Definition python_same (s : pystr) (f : (pystr -> A) -> A) (o : pystr -> bool) : Prop :=
  outcome (op_parse_expr _ _ _ _ _ SP (replace (u "^") (u "**") s)) None \/
  exists w, outcome (op_parse_expr _ _ _ _ _ SP (replace (u "^") (u "**") s)) (Some w) /\ expr w f o.
Definition comparable : Prop :=
  (forall v f o, expr v f o -> exists b, pure_to (op_truthy _ _ _ _ _ SP v) b) /\
  (forall v f o w g o', expr v f o -> expr w g o' -> exists b, pure_to (op_eq _ _ _ _ _ SP v w) b).
Definition all_readings (f : (pystr -> A) -> A) (o : pystr -> bool) (cs : list (option (pyval E Ob))) : Prop :=
  Forall (fun c => match c with None => True | Some w => expr w f o end) cs.
Lemma all_settles n gap e o : comparable -> depth = Datatypes.S n -> gap = [] \/ gap = [32%N] -> wf e -> has_symbols (body gap e) o ->
  python_same (body gap e) (fun rho => value K rho e) o ->
  settles (sympy_parse (joined O depth emb SP) (body gap e)) (all_readings (fun rho => value K rho e) o).
Proof.
  intros [HT HQ] D G W HS PA. unfold sympy_parse. set (f := fun rho => value K rho e) in *.
  apply settles_bind with (P := fun og => exists g, og = Some g /\ expr g f o).
  { apply settles_try. eapply settles_bind; [exact (object_settles n gap e o D G W HS)|]. intros v Hv. apply settles_ret. exists v. auto. }
  intros og (g & -> & Hg). apply settles_bind with (P := eq None); [apply settles_ret; reflexivity|]. intros ? <-. cbv zeta.
  apply settles_bind with (P := fun og => match og with None => True | Some w => expr w f o end).
  2:{ intros p Hp. apply settles_ret. repeat constructor; [exact Hg|exact Hp]. }
  destruct PA as [No|(w & Yes & Hw)].
  - intros st U. pose proof (right_outcome (S1 := globals V) _ _ No st) as [x Ex].
    exists None, (snd (right (S1 := globals V) (op_parse_expr _ _ _ _ _ SP (replace (u "^") (u "**") (body gap e))) st)).
    pose proof (right_keeps (S1 := globals V) (op_parse_expr _ _ _ _ _ SP (replace (u "^") (u "**") (body gap e))) st) as Kp.
    split; [|split; [exact I|unfold unset; rewrite Kp; exact U]]. unfold try_bare, bind. cbn [op_parse_expr joined].
    destruct (right _ st) as [[y|y] s']; [discriminate Ex|reflexivity].
  - apply settles_try. eapply settles_bind; [exact (settles_right _ _ Yes)|]. intros ? <-.
    destruct (sy_expr _ _ _ _ _ _ Y _ _ _ Hw) as (ew & -> & _). destruct (HT _ _ _ Hg) as [b Pb]. destruct (HQ _ _ _ _ _ _ Hw Hg) as [b' Pb'].
    apply settles_bind with (P := fun og => match og with None => True | Some w => expr w f o end).
    + eapply settles_bind; [exact (settles_right _ _ Pb)|]. intros ? <-. destruct b; [|apply settles_ret; exact Hw].
      eapply settles_bind; [exact (settles_right _ _ Pb')|]. intros ? <-. apply settles_ret. destruct b'; [exact I|exact Hw].
    + intros p Hp. apply settles_ret. exact Hp.
Qed.
Lemma none_gv (cmp : pyval E Ob -> pyval E Ob -> M (globals V * St) bool) g cs : (forall v, In (Some v) cs -> pure_to (cmp g v) false) -> pure_to (any_gv cmp g cs) false.
Proof.
  induction cs as [|[v|] cs IH]; intro H; cbn [any_gv]; [apply pure_ret| |apply IH; intros; apply H; right; assumption].
  eapply pure_bind; [apply H; left; reflexivity|]. cbv iota. apply IH. intros; apply H; right; assumption.
Qed.
Lemma none_gt (cmp : pyval E Ob -> pyval E Ob -> M (globals V * St) bool) cs ds : (forall g v, In (Some g) cs -> In (Some v) ds -> pure_to (cmp g v) false) -> pure_to (any_gt cmp cs ds) false.
Proof.
  induction cs as [|[g|] cs IH]; intro H; cbn [any_gt]; [apply pure_ret| |apply IH; intros; apply H; [right|]; assumption].
  eapply pure_bind; [apply none_gv; intros v Hv; apply H; [left; reflexivity|exact Hv]|]. cbv iota. apply IH. intros; apply H; [right|]; assumption.
Qed.

(** ** is_equiv on two expressions *)
Context {V' S : Type}.
Variable IS : ISympy (globals V * St) V' S.
Variable cmp : S -> S -> M (globals V * St) bool.
Variable ints : pystr -> pystr.
Variable iter : list pystr -> list pystr.
Variable iter_ok : forall l, Permutation (iter l) (nodup str_eq_dec l).
Variable lhs : pystr -> M (globals V * St) unit.
Theorem identity_verdict n m k e1 e2 s1 s2 o st : depth = Datatypes.S n -> answer ints s1 e1 -> answer ints s2 e2 ->
  has_symbols (tight e1) o -> has_symbols (tight e2) o -> (exists x, o x = true /\ x <> u "i") ->
  (forall rho, in_range drawn real rho -> value K rho e1 = value K rho e2 /\ defined (value K rho e1)) -> unset st ->
  fst (is_equiv (with_intervals IS cmp ints iter iter_ok (are_equal_with_simplify (joined O depth emb SP) (Datatypes.S m)) lhs) (Datatypes.S k) (Some s1) (Some s2) st) = Ret true.
Proof.
  intros D (W1 & P1 & T1 & N1) (W2 & P2 & T2 & N2) H1 H2 Hx Hfg U. cbn [is_equiv is_equiv_str]. unfold is_equiv_body.
  rewrite T1, T2. cbn [int_str with_intervals]. cbv zeta. rewrite N1, N2.
  destruct (str_eqb s1 s2) eqn:Es; [reflexivity|]. destruct (str_eqb (tight e1) (tight e2)) eqn:Et; [reflexivity|].
  rewrite (single_decided IS cmp ints iter iter_ok _ lhs _ _ _ st (tight_single e1 W1 P1) (tight_single e2 W2 P2)).
  assert (fst (are_equal_with_simplify (joined O depth emb SP) (Datatypes.S m) (tight e1) (tight e2) st) = Ret true) as Eb.
  { unfold are_equal_with_simplify.
    destruct (first_settles n [] e1 o D (or_introl eq_refl) W1 H1 st U) as (c1 & t1 & E1 & (g1 & r1 & -> & G1) & U1).
    destruct (first_settles n [] e2 o D (or_introl eq_refl) W2 H2 t1 U1) as (c2 & t2 & E2 & (g2 & r2 & -> & G2) & U2).
    rewrite (bind_step _ _ _ _ _ E1), (bind_step _ _ _ _ _ E2).
    pose proof (identity_accepted _ _ _ _ _ _ (joined_symbolic Y) m _ _ _ _ _ _ G1 G2 (fun x => eq_refl) Hfg Hx) as C. revert t2 E2 U2. 
    intros t2 _ _. revert t2. change (pure_to (any_gt (typed (joined O depth emb SP) (equal_sympy (joined O depth emb SP) (Datatypes.S m))) (Some g1 :: r1) (Some g2 :: r2)) true).
    cbn [any_gt any_gv]. eapply pure_bind; [eapply pure_bind; [exact C|apply pure_ret]|apply pure_ret]. }
  unfold are_equal_under_sympy, try_bare, bind. cbn [equal_with_simplify with_intervals].
  destruct (are_equal_with_simplify (joined O depth emb SP) (Datatypes.S m) (tight e1) (tight e2) st) as [r s]. cbn [fst] in Eb. subst r. reflexivity.
Qed.
(** Expressions in different symbols *)
Theorem symbols_verdict n m k e1 e2 s1 s2 o1 o2 st : sound SP expr (sub K) -> comparable ->
  depth = Datatypes.S n -> answer ints s1 e1 -> answer ints s2 e2 -> has_symbols (tight e1) o1 -> has_symbols (tight e2) o2 ->
  python_same (tight e1) (fun rho => value K rho e1) o1 -> python_same (tight e2) (fun rho => value K rho e2) o2 ->
  (exists x, o1 x <> o2 x) -> (exists x, o1 x = true /\ x <> u "i") -> (exists x, o2 x = true /\ x <> u "i") ->
  unlike (sub K) (fun rho => value K rho e1) (fun rho => value K rho e2) -> unset st ->
  fst (is_equiv (with_intervals IS cmp ints iter iter_ok (are_equal_with_simplify (joined O depth emb SP) (Datatypes.S m)) lhs) (Datatypes.S k) (Some s1) (Some s2) st) = Ret false.
Proof.
  intros Zs HC D (W1 & P1 & T1 & N1) (W2 & P2 & T2 & N2) H1 H2 A1 A2 Hd Hx Hy Hfg U.
  assert (Ne : tight e1 <> tight e2).
  { intro Et. destruct Hd as (x & Nx). destruct (object_settles n [] e1 o1 D (or_introl eq_refl) W1 H1 st U) as (v & t & Ev & _ & _).
    cbn [op_latex2sympy joined] in Ev. unfold bind, left in Ev. destruct (latex2sympy O depth (body [] e1) [] (fst st)) as [[r|r] g'] eqn:El; [|discriminate Ev].
    destruct (latex_object n [] e1 (fst st) D (or_introl eq_refl) W1 U) as (v' & g'' & El' & _). rewrite El in El'. injection El' as -> ->.
    destruct Nx. rewrite <- (H1 _ _ _ U El x). assert (El2 := El). change (body [] e1) with (tight e1) in El2. rewrite Et in El2. exact (H2 _ _ _ U El2 x). }
  cbn [is_equiv is_equiv_str]. unfold is_equiv_body. rewrite T1, T2. cbn [int_str with_intervals]. cbv zeta. rewrite N1, N2.
  destruct (str_eqb s1 s2) eqn:Es; [apply str_eqb_eq in Es; subst s2; rewrite N1 in N2; congruence|]. destruct (str_eqb (tight e1) (tight e2)) eqn:Et; [apply str_eqb_eq in Et; congruence|].
  rewrite (single_decided IS cmp ints iter iter_ok _ lhs _ _ _ st (tight_single e1 W1 P1) (tight_single e2 W2 P2)).
  assert (fst (are_equal_with_simplify (joined O depth emb SP) (Datatypes.S m) (tight e1) (tight e2) st) = Ret false) as Eb.
  { unfold are_equal_with_simplify.
    destruct (all_settles n [] e1 o1 HC D (or_introl eq_refl) W1 H1 A1 st U) as (c1 & t1 & E1 & R1 & U1).
    destruct (all_settles n [] e2 o2 HC D (or_introl eq_refl) W2 H2 A2 t1 U1) as (c2 & t2 & E2 & R2 & U2).
    rewrite (bind_step _ _ _ _ _ E1), (bind_step _ _ _ _ _ E2). apply none_gt. intros g v Hg Hv. unfold all_readings in R1, R2. rewrite Forall_forall in R1, R2.
    exact (symbols_rejected _ _ _ _ _ _ (joined_symbolic Y) _ (joined_sound _ Zs) m _ _ _ _ _ _ (R1 _ Hg) (R2 _ Hv) Hd Hfg Hx Hy). }
  unfold are_equal_under_sympy, try_bare, bind. cbn [equal_with_simplify with_intervals].
  destruct (are_equal_with_simplify (joined O depth emb SP) (Datatypes.S m) (tight e1) (tight e2) st) as [r s]. cbn [fst] in Eb. subst r. reflexivity.
Qed.
End Joined.

(** ** A back end that keeps the symbols it is given *)
Section Keeps.
Context {V A : Type}.
Variable O : LSympy V.
Variable K : arithmetic A.
Variable den : V -> A.
Variable rho : pystr -> A.
Variable occ : pystr -> V -> bool.
Hypothesis F : forall x, faithful (pair_arith K OrArith) V (fun v => (den v, occ x v)) (fun y => (rho y, str_eqb y x)) [] (o_md5 _ O) O.
Hypothesis HP : forall s t, parse_text s = Found t -> o_parse _ O s = Ret t.
Lemma symbols_kept n gap e : gap = [] \/ gap = [32%N] -> wf e -> has_symbols O (Datatypes.S n) occ (body gap e) (fun x => occurs x e).
Proof.
  intros G W g g' v U Ev x. destruct (parse_body gap (pair_arith K OrArith) V (fun v => (den v, occ x v)) (fun y => (rho y, str_eqb y x)) [] (o_md5 _ O) e G W) as (t & Ht & R).
  assert (PR : o_parse _ O (prepare (body gap e)) = Ret (MRel (RExpr t))) by (rewrite (ArithPrep.prepare_latex gap G e W); apply HP, Ht).
  revert Ev. rewrite latex2sympy_head. unfold bind.
  destruct (head_rel Exact (body gap e) [] g g) as (s1 & s1' & Hh & _ & Rl & Hs1); [split; cbn; reflexivity|].
  assert (g_var s1 = []) as E'. { revert Hh. unfold head, bind, gets, set_frac, set_values. intros [= <-]. exact U. }
  rewrite Hh. unfold rest, bind, lift_res. rewrite PR. cbn [conv_rel].
  destruct (proj1 (conv_value _ V _ _ [] (o_md5 _ O) O (F x) (latex2sympy O n)) t _ R s1 E' Hs1) as (v' & s2 & -> & [_ Wv] & U2 & _).
  intros [= <- _]. rewrite (value_pair K OrArith rho (fun y => str_eqb y x) e) in Wv. injection Wv as _ ->. apply value_occurs.
Qed.
End Keeps.
