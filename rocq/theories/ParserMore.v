(** More about the symbolic comparison: candidates, pairs, the stages, the letter i, definitions. *)
From Coq Require Import String List NArith Bool Lia PeanoNat.
From Verif Require Import PyStr PyStrTheory Monad MonadTheory Parser ParserTheory.
Import ListNotations.
Local Open Scope mon_scope.

(** [m] always returns the value (Some) or always raises (None), in every state *)
Definition outcome {St A} (m : M St A) (o : option A) : Prop :=
  match o with Some a => pure_to m a | None => forall st, exists e, fst (m st) = Raise e end.
Lemma try_outcome {St A} (m : M St A) (o : option A) d : outcome m o -> pure_to (try_bare m (ret d)) (match o with Some a => a | None => d end).
Proof.
  intros H st. unfold try_bare. destruct o as [a|]; cbn in H.
  - specialize (H st). destruct (m st) as [r s]; cbn in H; subst r. reflexivity.
  - destruct (H st) as [e E]. destruct (m st) as [r s]; cbn in E; subst r. reflexivity.
Qed.
Lemma outcome_bind {St A B} (m : M St A) (f : A -> M St B) o : forall o', outcome m o ->
  match o with Some a => outcome (f a) o' | None => o' = None end -> outcome (bind m f) o'.
Proof.
  intros o' H K. destruct o as [a|]; cbn in H.
  - destruct o' as [b|]; cbn in K |- *.
    + eapply pure_bind; eassumption.
    + intro st. unfold bind. specialize (H st). destruct (m st) as [r s]; cbn in H; subst r. apply K.
  - subst o'. intro st. unfold bind. destruct (H st) as [e E]. exists e. destruct (m st) as [r s]; cbn in E; subst r. reflexivity.
Qed.
Lemma outcome_pure {St A} (m : M St A) a : pure_to m a -> outcome m (Some a).
Proof. exact (fun H => H). Qed.

Section More.
Context {St E Ob Sym Num : Type}.
Variable SP : Sympy St E Ob Sym Num.
Notation val := (pyval E Ob).

(** ** The candidates of a text *)
(** what Python's parser read: more than two components are no interval *)
Inductive plain : val -> val -> Prop :=
| pl_long l : 3 <= length l -> plain (VTuple l) (VList l)
| pl_pair l : length l <= 2 -> plain (VTuple l) (VTuple l)
| pl_other v : (forall l, v <> VTuple l) -> plain v v.
(** [latex]: the first reading as LaTeX; [py]: the reading as Python *)
Inductive candidates (same : val -> val -> Prop) : option val -> option val -> list val -> Prop :=
| ca_none : candidates same None None []
| ca_latex x : candidates same (Some x) None [x]
| ca_python p v : plain p v -> candidates same None (Some p) [v]
| ca_same x p v : plain p v -> same v x -> candidates same (Some x) (Some p) [x]
| ca_both x p v : plain p v -> ~ same v x -> candidates same (Some x) (Some p) [x; v].
Lemma plain_fun p : exists v, plain p v /\ (match p with VTuple l => if Nat.ltb 2 (length l) then VList l else p | _ => p end) = v.
Proof.
  destruct p as [l|l|l|l r|o l r|e|r c f| |o]; try (eexists; split; [apply pl_other; discriminate|reflexivity]).
  destruct (Nat.ltb_spec 2 (length l)); eexists; (split; [|reflexivity]); [apply pl_long|apply pl_pair]; lia.
Qed.
Theorem candidates_of s l2s pl py (truthy : val -> bool) (eqv : val -> val -> bool) :
  outcome (op_latex2sympy _ _ _ _ _ SP s) l2s -> outcome (op_parse_latex _ _ _ _ _ SP s) pl ->
  outcome (op_parse_expr _ _ _ _ _ SP (replace (u "^") (u "**") s)) py ->
  (forall v, pure_to (op_truthy _ _ _ _ _ SP v) (truthy v)) -> (forall v w, pure_to (op_eq _ _ _ _ _ SP v w) (eqv v w)) ->
  exists cs, pure_to (sympy_parse SP s) cs /\
    candidates (fun v x => truthy x = true /\ eqv v x = true) (match l2s with Some x => Some x | None => pl end) py (parsed cs).
Proof.
  intros H1 H2 H3 HT HE.
  assert (P1 : pure_to (try_bare (v <- op_latex2sympy _ _ _ _ _ SP s ;; ret (Some v)) (ret None)) l2s).
  { pose proof (try_outcome (v <- op_latex2sympy _ _ _ _ _ SP s ;; ret (Some v)) (match l2s with Some v => Some (Some v) | None => None end) None) as T.
    destruct l2s; apply T; (eapply outcome_bind; [exact H1|]); [apply pure_ret|reflexivity]. }
  set (first := match l2s with Some x => Some x | None => pl end).
  assert (P2 : pure_to (match l2s with None => try_bare (v <- op_parse_latex _ _ _ _ _ SP s ;; ret (Some v)) (ret None) | Some _ => ret None end)
    (match l2s with Some _ => None | None => pl end)).
  { destruct l2s; [apply pure_ret|].
    pose proof (try_outcome (v <- op_parse_latex _ _ _ _ _ SP s ;; ret (Some v)) (match pl with Some v => Some (Some v) | None => None end) None) as T.
    destruct pl; apply T; (eapply outcome_bind; [exact H2|]); [apply pure_ret|reflexivity]. }
  unfold sympy_parse.
  destruct py as [p|].
  - destruct (plain_fun p) as (v & Hv & Ev).
    set (same := fun x => truthy x && eqv v x).
    exists [l2s; match l2s with Some _ => None | None => pl end; match first with Some x => if same x then None else Some v | None => Some v end].
    split.
    + eapply pure_bind; [exact P1|]. eapply pure_bind; [exact P2|]. cbv zeta. eapply pure_bind; [|apply pure_ret].
      apply pure_try_bare. eapply pure_bind; [exact H3|]. cbv beta. rewrite Ev.
      destruct l2s as [x|]; cbn [first].
      * subst first. cbn. eapply pure_bind.
        { eapply pure_bind; [apply HT|]. instantiate (1 := if same x then None else Some v). unfold same. destruct (truthy x); [|apply pure_ret].
          eapply pure_bind; [apply HE|]. destruct (eqv v x); apply pure_ret. }
        apply pure_ret.
      * subst first. eapply pure_bind; [apply pure_ret|]. destruct pl as [x|]; [|apply pure_ret].
        eapply pure_bind; [apply HT|]. unfold same. destruct (truthy x); [|apply pure_ret].
        eapply pure_bind; [apply HE|]. destruct (eqv v x); apply pure_ret.
    + assert (R : parsed [l2s; match l2s with Some _ => None | None => pl end; match first with Some x => if same x then None else Some v | None => Some v end] =
        match first with Some x => if same x then [x] else [x; v] | None => [v] end).
      { unfold first. destruct l2s as [x|]; [|destruct pl as [x|]]; cbn; try (destruct (same x)); reflexivity. }
      rewrite R. destruct first as [x|]; [|apply ca_python, Hv].
      destruct (same x) eqn:Sx; unfold same in Sx.
      * apply andb_prop in Sx. apply (ca_same _ x p v Hv Sx).
      * apply (ca_both _ x p v Hv). intros [A B]. rewrite A, B in Sx. discriminate.
  - exists [l2s; match l2s with Some _ => None | None => pl end; None]. split.
    + eapply pure_bind; [exact P1|]. eapply pure_bind; [exact P2|]. cbv zeta. eapply pure_bind; [|apply pure_ret].
      match goal with |- pure_to (try_bare ?m _) _ => apply (try_outcome m None None) end.
      eapply outcome_bind; [exact H3|reflexivity].
    + replace (parsed _) with (match first with Some x => [x] | None => [] end) by (unfold first; destruct l2s; [|destruct pl]; reflexivity).
      destruct first; constructor.
Qed.

(** ** Pairs are never equal to anything *)
Lemma scalar_left_raises v w : (exists l, v = VTuple l) -> forall st, fst (scalar_equal SP v w st) = Raise AttributeError.
Proof. intros [l ->] st. reflexivity. Qed.
Lemma bind_fails {A B} (m : M St A) (f : A -> M St B) (Q : res B -> Prop) :
  (forall a st, Q (fst (f a st))) -> (forall e, Q (Raise e)) -> forall st, Q (fst (bind m f st)).
Proof. intros H R st. unfold bind. destruct (m st) as [[a|e] s]; [apply H|apply R]. Qed.
Definition no_truth {B} (r : res B) : Prop := exists e, r = Raise e.
Lemma scalar_right_raises v l st : no_truth (fst (scalar_equal SP v (VTuple l) st)).
Proof.
  unfold scalar_equal. apply bind_fails; [|eexists; reflexivity]. intros n1 s1.
  apply bind_fails; [|eexists; reflexivity]. intros g s2. eexists. reflexivity.
Qed.
Lemma tuple_left n : forall l b t2 st, no_truth (fst (equal_sympy SP n (VTuple l) b TOths t2 st)).
Proof.
  induction n as [|n IH]; intros l b t2 st; [eexists; reflexivity|].
  destruct t2; try (eexists; reflexivity).
  rewrite functions by auto. unfold defined at 1. cbn [rhs_of]. unfold bind at 1, ret at 1.
  apply bind_fails; [|eexists; reflexivity]. intros p s. apply IH.
Qed.
Lemma tuple_right n : forall l b t1 st, no_truth (fst (equal_sympy SP n b (VTuple l) t1 TOths st)).
Proof.
  induction n as [|n IH]; intros l b t1 st; [eexists; reflexivity|].
  destruct t1; try (exact (scalar_right_raises b l st)).
  rewrite functions by auto. apply bind_fails; [|eexists; reflexivity]. intros p s. unfold defined. cbn [rhs_of]. unfold bind at 1, ret at 1. apply IH.
Qed.
Theorem pairs_never_equal n l v st : no_truth (fst (compare SP n (VTuple l) v st)) /\ no_truth (fst (compare SP n v (VTuple l) st)).
Proof.
  unfold compare, typed. split.
  - cbn [get_sympy_type]. unfold bind at 1, ret at 1. apply bind_fails; [|eexists; reflexivity]. intros t s. apply tuple_left.
  - apply bind_fails; [|eexists; reflexivity]. intros t s. cbn [get_sympy_type]. unfold bind at 1, ret at 1. apply tuple_right.
Qed.
Lemma candidates_none same py cs : candidates same None py cs -> cs = match py with None => [] | Some p => cs end /\ (forall p, py = Some p -> exists v, plain p v /\ cs = [v]).
Proof. intro H. inversion H; subst; (split; [reflexivity|]); intros p' [=]; subst; eauto. Qed.
Theorem pair_texts_differ n gt gv l1 l2 truthy eqv st : length l1 <= 2 -> length l2 <= 2 ->
  (forall v, pure_to (op_truthy _ _ _ _ _ SP v) (truthy v)) -> (forall v w, pure_to (op_eq _ _ _ _ _ SP v w) (eqv v w)) ->
  Forall (fun s => outcome (op_latex2sympy _ _ _ _ _ SP s) None /\ outcome (op_parse_latex _ _ _ _ _ SP s) None) [gt; gv] ->
  outcome (op_parse_expr _ _ _ _ _ SP (replace (u "^") (u "**") gt)) (Some (VTuple l1)) ->
  outcome (op_parse_expr _ _ _ _ _ SP (replace (u "^") (u "**") gv)) (Some (VTuple l2)) ->
  fst (are_equal_under_sympy_repo SP n gt gv st) = Ret false.
Proof.
  intros L1 L2 HT HE HF P1 P2. inversion HF as [|? ? [A1 B1] HF']; subst. inversion HF' as [|? ? [A2 B2] _]; subst.
  destruct (candidates_of gt None None _ truthy eqv A1 B1 P1 HT HE) as (c1 & E1 & C1).
  destruct (candidates_of gv None None _ truthy eqv A2 B2 P2 HT HE) as (c2 & E2 & C2).
  destruct (proj2 (candidates_none _ _ _ C1) _ eq_refl) as (v1 & Q1 & D1). destruct (proj2 (candidates_none _ _ _ C2) _ eq_refl) as (v2 & Q2 & D2).
  destruct (under_sympy_total SP n gt gv st) as [[] T]; [|exact T]. exfalso.
  assert (X1 : v1 = VTuple l1) by (inversion Q1; subst; [lia|reflexivity|reflexivity]).
  destruct (pure_inv _ _ st E1) as [s1 F1]. destruct (pure_inv _ _ s1 E2) as [s2 F2].
  revert T. unfold are_equal_under_sympy_repo, try_bare, are_equal_with_simplify, bind. rewrite F1, F2.
  destruct (any_gt (typed SP (equal_sympy SP n)) c1 c2 s2) as [[[]|e] s3] eqn:G; cbn; try discriminate. intros _.
  apply any_gt_spec in G. rewrite D1, D2 in G. cbn in G.
  destruct G as [pre a b post s4 s5 Epre _ G].
  assert (a = v1) as ->. { destruct pre as [|x [|]]; cbn in Epre; congruence. }
  rewrite X1 in G. destruct (proj1 (pairs_never_equal n l1 b s4)) as [e F]. unfold compare in F. rewrite G in F. discriminate.
Qed.

(** ** The stages of the scalar comparison *)
Definition holds (o : option (option bool)) : bool := match o with Some (Some b) => b | _ => false end.
Definition said (o : option bool) : bool := match o with Some b => b | None => false end.
Theorem stages n e1 e2 f1 f2 x d r1 r2 :
  pure_to (op_has_I _ _ _ _ _ SP e1) false -> pure_to (op_has_I _ _ _ _ _ SP e2) false ->
  pure_to (op_free_symbols _ _ _ _ _ SP (VExpr e1)) f1 -> pure_to (op_free_symbols _ _ _ _ _ SP (VExpr e2)) f2 ->
  (forall s, op_sym_name _ _ _ _ _ SP s = u "i" -> f1 <> [s] /\ f2 <> [s]) ->
  pure_to (op_is_number _ _ _ _ _ SP (VExpr e1)) false -> pure_to (op_is_number _ _ _ _ _ SP (VExpr e2)) false ->
  outcome (op_expand_equal _ _ _ _ _ SP (VExpr e1) (VExpr e2)) x ->
  outcome (w <- op_sub _ _ _ _ _ SP (VExpr e1) (VExpr e2) ;; s <- sympy_simplify SP w ;; diff_equal SP (VExpr e1) s) d -> d <> Some None ->
  outcome (numerical_equal SP RandInt (VExpr e1) (VExpr e2)) (Some r1) -> outcome (numerical_equal SP Uniform (VExpr e1) (VExpr e2)) (Some r2) ->
  f1 <> [] -> f2 <> [] ->
  pure_to (compare SP (S n) (VExpr e1) (VExpr e2)) (said x || holds d || r1 || r2).
Proof.
  intros I1 I2 F1 F2 NI N1 N2 X D ND R1 R2 E1 E2. unfold compare, typed. cbn [get_sympy_type].
  eapply pure_bind; [eapply pure_bind; [exact I1|apply pure_ret]|]. eapply pure_bind; [eapply pure_bind; [exact I2|apply pure_ret]|].
  cbn [equal_sympy]. generalize (equal_sympy SP n). intro rec. unfold body. cbn -[scalar_equal get_sympy_type expr_with_only_i].
  assert (O1 : pure_to (expr_with_only_i SP (VExpr e1)) (VExpr e1, false)).
  { eapply pure_bind; [exact F1|]. destruct f1 as [|s [|]]; try apply pure_ret.
    destruct (str_eqb _ _) eqn:Q; [|apply pure_ret]. apply str_eqb_eq in Q. destruct (NI s Q) as [C _]. destruct C. reflexivity. }
  assert (O2 : pure_to (expr_with_only_i SP (VExpr e2)) (VExpr e2, false)).
  { eapply pure_bind; [exact F2|]. destruct f2 as [|s [|]]; try apply pure_ret.
    destruct (str_eqb _ _) eqn:Q; [|apply pure_ret]. apply str_eqb_eq in Q. destruct (NI s Q) as [_ C]. destruct C. reflexivity. }
  eapply pure_bind; [eapply pure_bind; [exact O1|]; eapply pure_bind; [exact O2|apply pure_ret]|]. cbn -[scalar_equal].
  unfold scalar_equal. cbn [attr]. eapply pure_bind; [exact N1|]. eapply pure_bind; [apply pure_ret|]. eapply pure_bind; [exact N2|]. eapply pure_bind; [apply pure_ret|].
  eapply pure_bind.
  { instantiate (1 := said x). intro st. unfold try_bare, sympy_expand_equal, try_except. cbn [attr]. destruct x as [x|]; cbn in X.
    - specialize (X st). destruct (op_expand_equal _ _ _ _ _ _ _ _ st) as [r s]; cbn in X; subst r. reflexivity.
    - destruct (X st) as [e Q]. destruct (op_expand_equal _ _ _ _ _ _ _ _ st) as [r s]; cbn in Q; subst r. destruct (is_Exception e); reflexivity. }
  destruct (said x); [apply pure_ret|]. cbn [orb].
  eapply pure_bind; [apply (try_outcome _ _ (Some false) D)|]. cbv beta.
  eapply pure_bind.
  { instantiate (1 := holds d). destruct d as [[b|]|]; [apply pure_ret| |apply pure_ret]. destruct ND. reflexivity. }
  destruct (holds d); [apply pure_ret|]. cbn [orb].
  apply pure_try_bare. eapply pure_bind; [exact F1|]. eapply pure_bind.
  { instantiate (1 := f2). destruct f1; [destruct E1; reflexivity|exact F2]. }
  destruct f1 as [|a1 f1]; [destruct E1; reflexivity|]. destruct f2 as [|a2 f2]; [destruct E2; reflexivity|].
  eapply pure_bind; [exact R1|]. destruct r1; [apply pure_ret|exact R2].
Qed.

(** numbers drawn by random.randint that agree suffice *)
Theorem stages_int n e1 e2 f1 f2 x d :
  pure_to (op_has_I _ _ _ _ _ SP e1) false -> pure_to (op_has_I _ _ _ _ _ SP e2) false ->
  pure_to (op_free_symbols _ _ _ _ _ SP (VExpr e1)) f1 -> pure_to (op_free_symbols _ _ _ _ _ SP (VExpr e2)) f2 ->
  (forall s, op_sym_name _ _ _ _ _ SP s = u "i" -> f1 <> [s] /\ f2 <> [s]) ->
  pure_to (op_is_number _ _ _ _ _ SP (VExpr e1)) false -> pure_to (op_is_number _ _ _ _ _ SP (VExpr e2)) false ->
  outcome (op_expand_equal _ _ _ _ _ SP (VExpr e1) (VExpr e2)) x ->
  outcome (w <- op_sub _ _ _ _ _ SP (VExpr e1) (VExpr e2) ;; s <- sympy_simplify SP w ;; diff_equal SP (VExpr e1) s) d -> d <> Some None ->
  pure_to (numerical_equal SP RandInt (VExpr e1) (VExpr e2)) true ->
  f1 <> [] -> f2 <> [] ->
  pure_to (compare SP (S n) (VExpr e1) (VExpr e2)) (said x || holds d || true).
Proof.
  intros I1 I2 F1 F2 NI N1 N2 X D ND R1 E1 E2. unfold compare, typed. cbn [get_sympy_type].
  eapply pure_bind; [eapply pure_bind; [exact I1|apply pure_ret]|]. eapply pure_bind; [eapply pure_bind; [exact I2|apply pure_ret]|].
  cbn [equal_sympy]. generalize (equal_sympy SP n). intro rec. unfold body. cbn -[scalar_equal get_sympy_type expr_with_only_i].
  assert (O1 : pure_to (expr_with_only_i SP (VExpr e1)) (VExpr e1, false)).
  { eapply pure_bind; [exact F1|]. destruct f1 as [|s [|]]; try apply pure_ret.
    destruct (str_eqb _ _) eqn:Q; [|apply pure_ret]. apply str_eqb_eq in Q. destruct (NI s Q) as [C _]. destruct C. reflexivity. }
  assert (O2 : pure_to (expr_with_only_i SP (VExpr e2)) (VExpr e2, false)).
  { eapply pure_bind; [exact F2|]. destruct f2 as [|s [|]]; try apply pure_ret.
    destruct (str_eqb _ _) eqn:Q; [|apply pure_ret]. apply str_eqb_eq in Q. destruct (NI s Q) as [_ C]. destruct C. reflexivity. }
  eapply pure_bind; [eapply pure_bind; [exact O1|]; eapply pure_bind; [exact O2|apply pure_ret]|]. cbn -[scalar_equal].
  unfold scalar_equal. cbn [attr]. eapply pure_bind; [exact N1|]. eapply pure_bind; [apply pure_ret|]. eapply pure_bind; [exact N2|]. eapply pure_bind; [apply pure_ret|].
  eapply pure_bind.
  { instantiate (1 := said x). intro st. unfold try_bare, sympy_expand_equal, try_except. cbn [attr]. destruct x as [x|]; cbn in X.
    - specialize (X st). destruct (op_expand_equal _ _ _ _ _ _ _ _ st) as [r s]; cbn in X; subst r. reflexivity.
    - destruct (X st) as [e Q]. destruct (op_expand_equal _ _ _ _ _ _ _ _ st) as [r s]; cbn in Q; subst r. destruct (is_Exception e); reflexivity. }
  destruct (said x); [apply pure_ret|]. cbn [orb].
  eapply pure_bind; [apply (try_outcome _ _ (Some false) D)|]. cbv beta.
  eapply pure_bind.
  { instantiate (1 := holds d). destruct d as [[b|]|]; [apply pure_ret| |apply pure_ret]. destruct ND. reflexivity. }
  destruct (holds d); [apply pure_ret|]. cbn [orb].
  apply pure_try_bare. eapply pure_bind; [exact F1|]. eapply pure_bind.
  { instantiate (1 := f2). destruct f1; [destruct E1; reflexivity|exact F2]. }
  destruct f1 as [|a1 f1]; [destruct E1; reflexivity|]. destruct f2 as [|a2 f2]; [destruct E2; reflexivity|].
  eapply pure_bind; [exact R1|]. apply pure_ret.
Qed.

(** ** The letter i *)
(** [with_i v w b]: w is v with the symbol i, if it is the only one, taken for the imaginary unit *)
Inductive with_i (v : val) : val -> bool -> Prop :=
| wi_only s w : pure_to (op_free_symbols _ _ _ _ _ SP v) [s] -> op_sym_name _ _ _ _ _ SP s = u "i" ->
    pure_to (op_subs_I _ _ _ _ _ SP v s) w -> with_i v w true
| wi_not fs : pure_to (op_free_symbols _ _ _ _ _ SP v) fs -> (forall s, op_sym_name _ _ _ _ _ SP s = u "i" -> fs <> [s]) -> with_i v v false.
Lemma with_i_run v w b : with_i v w b -> pure_to (expr_with_only_i SP v) (w, b).
Proof.
  intros [s w' F N S|fs F N]; eapply pure_bind; try exact F; cbv beta iota.
  - rewrite N. rewrite (proj2 (str_eqb_eq _ _) eq_refl). eapply pure_bind; [exact S|apply pure_ret].
  - destruct fs as [|s [|]]; try apply pure_ret. destruct (str_eqb _ _) eqn:Q; [|apply pure_ret].
    apply str_eqb_eq in Q. destruct (N s Q). reflexivity.
Qed.
Theorem letter_i n e1 e2 w1 w2 b1 b2 a1 c1 a2 c2 ta1 tc1 ta2 tc2 x y :
  pure_to (op_has_I _ _ _ _ _ SP e1) false -> pure_to (op_has_I _ _ _ _ _ SP e2) false ->
  with_i (VExpr e1) w1 b1 -> with_i (VExpr e2) w2 b2 -> b1 || b2 = true ->
  pure_to (op_re _ _ _ _ _ SP w1) a1 -> pure_to (op_im _ _ _ _ _ SP w1) c1 ->
  pure_to (op_re _ _ _ _ _ SP w2) a2 -> pure_to (op_im _ _ _ _ _ SP w2) c2 ->
  pure_to (get_sympy_type SP a1) ta1 -> pure_to (get_sympy_type SP c1) tc1 -> pure_to (get_sympy_type SP a2) ta2 -> pure_to (get_sympy_type SP c2) tc2 ->
  pure_to (equal_sympy SP n a1 a2 ta1 ta2) x -> pure_to (equal_sympy SP n c1 c2 tc1 tc2) y ->
  pure_to (compare SP (S (S n)) (VExpr e1) (VExpr e2)) (x && y).
Proof.
  intros I1 I2 W1 W2 B R1 M1 R2 M2 U1 V1 U2 V2 HX HY. unfold compare, typed. cbn [get_sympy_type].
  eapply pure_bind; [eapply pure_bind; [exact I1|apply pure_ret]|]. eapply pure_bind; [eapply pure_bind; [exact I2|apply pure_ret]|].
  assert (C : pure_to (equal_sympy SP (S n) w1 w2 TCplx TCplx) (x && y)).
  { cbn [equal_sympy]. revert HX HY. generalize (equal_sympy SP n). intros rec HX HY. unfold body. cbn -[get_sympy_type].
    eapply pure_bind; [exact R1|]. eapply pure_bind; [exact M1|]. eapply pure_bind; [exact R2|]. eapply pure_bind; [exact M2|].
    eapply pure_bind; [exact U1|]. eapply pure_bind; [exact V1|]. eapply pure_bind; [exact U2|]. eapply pure_bind; [exact V2|].
    eapply pure_bind; [exact HX|]. destruct x; [exact HY|apply pure_ret]. }
  change (equal_sympy SP (S (S n))) with (body SP (equal_sympy SP (S n))). revert C. generalize (equal_sympy SP (S n)). intros rec C.
  unfold body. cbn -[get_sympy_type expr_with_only_i scalar_equal].
  eapply pure_bind; [eapply pure_bind; [apply (with_i_run _ _ _ W1)|]; eapply pure_bind; [apply (with_i_run _ _ _ W2)|apply pure_ret]|].
  cbn -[scalar_equal]. rewrite B. exact C.
Qed.

(** ** Definitions *)
(** the left-hand side is a name: f(x), 1/f(x) or y *)
Definition is_name (l : val) : Prop := exists i a b c, pure_to (op_inv _ _ _ _ _ SP l) i /\ pure_to (op_named_function _ _ _ _ _ SP l) a /\ pure_to (op_named_function _ _ _ _ _ SP i) b /\ pure_to (op_is_symbol _ _ _ _ _ SP l) c /\ a || b || c = true.
Definition no_name (l : val) : Prop := exists i, pure_to (op_inv _ _ _ _ _ SP l) i /\ pure_to (op_named_function _ _ _ _ _ SP l) false /\ pure_to (op_named_function _ _ _ _ _ SP i) false /\ pure_to (op_is_symbol _ _ _ _ _ SP l) false.
Lemma name_type l r : is_name l -> pure_to (get_sympy_type SP (VEq l r)) TFunc.
Proof.
  intros (i & a & b & c & Hi & Ha & Hb & Hc & H). cbn [get_sympy_type]. eapply pure_bind; [exact Hi|]. eapply pure_bind; [exact Ha|].
  destruct a; [apply pure_ret|]. eapply pure_bind; [exact Hb|]. destruct b; [apply pure_ret|]. eapply pure_bind; [exact Hc|].
  destruct c; [apply pure_ret|discriminate].
Qed.
Lemma no_name_type l r : no_name l -> pure_to (get_sympy_type SP (VEq l r)) TEqul.
Proof.
  intros (i & Hi & Ha & Hb & Hc). cbn [get_sympy_type]. eapply pure_bind; [exact Hi|]. eapply pure_bind; [exact Ha|].
  eapply pure_bind; [exact Hb|]. eapply pure_bind; [exact Hc|]. apply pure_ret.
Qed.
Theorem two_definitions n l1 r1 l2 r2 b : is_name l1 \/ is_name l2 -> is_name l1 \/ no_name l1 -> is_name l2 \/ no_name l2 ->
  pure_to (compare SP n r1 r2) b -> pure_to (compare SP (S n) (VEq l1 r1) (VEq l2 r2)) b.
Proof.
  intros H H1 H2 C.
  assert (T : exists t1 t2, pure_to (get_sympy_type SP (VEq l1 r1)) t1 /\ pure_to (get_sympy_type SP (VEq l2 r2)) t2 /\ (t1 = TFunc \/ t2 = TFunc)).
  { destruct H as [N|N].
    - destruct H2 as [N2|N2]; (eexists _, _; split; [apply name_type, N|]; split; [first [apply name_type, N2|apply no_name_type, N2]|auto]).
    - destruct H1 as [N1|N1]; (eexists _, _; split; [first [apply name_type, N1|apply no_name_type, N1]|]; split; [apply name_type, N|auto]). }
  destruct T as (t1 & t2 & T1 & T2 & TF). unfold compare, typed. eapply pure_bind; [exact T1|]. eapply pure_bind; [exact T2|].
  intro st. rewrite functions by exact TF. unfold defined. cbn [rhs_of].
  transitivity (fst (compare SP n r1 r2 st)); [|apply C]. unfold compare, typed, bind, ret.
  destruct (get_sympy_type SP r1 st) as [[a1|] s1]; [|reflexivity]. destruct (get_sympy_type SP r2 s1) as [[a2|] s2]; reflexivity.
Qed.
Theorem definition_alone n l r v t tr b : is_name l -> (forall a c, v <> VEq a c) -> pure_to (get_sympy_type SP v) t -> pure_to (get_sympy_type SP r) tr ->
  pure_to (equal_sympy SP n r v tr t) b -> pure_to (compare SP (S n) (VEq l r) v) b.
Proof.
  intros N NV T Tr C. unfold compare, typed. eapply pure_bind; [apply name_type, N|]. eapply pure_bind; [exact T|].
  intro st. rewrite functions by auto. unfold defined. cbn [rhs_of]. replace (rhs_of v) with (@None val) by (destruct v; try reflexivity; destruct (NV _ _ eq_refl)).
  revert st. eapply pure_bind; [eapply pure_bind; [exact Tr|apply pure_ret]|]. eapply pure_bind; [apply pure_ret|]. exact C.
Qed.
End More.
