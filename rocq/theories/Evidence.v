(** What an acceptance rests on: whenever the comparison of latex_parser.py says True, SymPy has given the
    answers that justify it.  And intervals one end of which is no number. *)
From Coq Require Import String List NArith ZArith Bool Lia.
From Verif Require Import PyStr PyStrTheory Imaginary Monad MonadTheory Parser.
Import ListNotations.
Local Open Scope mon_scope.
Local Open Scope nat_scope.

(** ** Specification *)
Section Spec.
Context {St E Ob Sym Num : Type}.
Variable SP : Sympy St E Ob Sym Num.
Notation val := (pyval E Ob).

(** SymPy answers [a] to the question [m], in some state. *)
Definition gives {A} (m : M St A) (a : A) : Prop := exists st st', m st = (Ret a, st').

(** The absolute value, or its evaluation, is below the threshold. *)
Definition tiny (x : val) (t : thr) : Prop :=
  exists a, gives (op_abs _ _ _ _ _ SP x) a /\
    (gives (op_lt _ _ _ _ _ SP a t) (Some true) \/
     exists e, gives (op_evalf _ _ _ _ _ SP a []) e /\ gives (op_lt _ _ _ _ _ SP e t) (Some true)).
Definition zero (d : val) : Prop := gives (op_eq0 _ _ _ _ _ SP d) true \/ gives (op_is_zero _ _ _ _ _ SP d) (Some true).
(** [d] is small beside [g]: zero; or a number below the threshold; or below five times the threshold if
    [g] is at least 1 in absolute value; or below the threshold relative to a [g] that is not zero. *)
Definition small (g d : val) : Prop :=
  zero d \/
  gives (op_is_number _ _ _ _ _ SP d) true /\
  (tiny d Eps /\ (gives (op_is_Integer _ _ _ _ _ SP g) true \/ exists s l, gives (op_free_symbols _ _ _ _ _ SP g) (s :: l)) \/
   tiny d Eps5 /\ (exists a, gives (op_abs _ _ _ _ _ SP g) a /\ gives (op_ge1 _ _ _ _ _ SP a) (Some true)) /\ gives (op_is_Integer _ _ _ _ _ SP g) false \/
   exists q a, gives (op_div _ _ _ _ _ SP d g) q /\ tiny q Eps /\ gives (op_abs _ _ _ _ _ SP g) a /\ gives (op_gt0 _ _ _ _ _ SP a) (Some true) /\ gives (op_is_Integer _ _ _ _ _ SP g) false).
(** The two have the same symbols and agree at ten points drawn with [rng]. *)
Definition agree_at (v w : val) (env : list (Sym * Num)) : Prop :=
  exists a b d, gives (op_evalf _ _ _ _ _ SP v env) a /\ gives (op_evalf _ _ _ _ _ SP w env) b /\ a <> VNone /\ b <> VNone /\
    gives (op_sub _ _ _ _ _ SP a b) d /\ small a d.
Definition agree (rng : rngfun) (v w : val) : Prop :=
  exists syms syms' points, gives (op_free_symbols _ _ _ _ _ SP v) syms /\ gives (op_free_symbols _ _ _ _ _ SP w) syms' /\
    op_same_symbols _ _ _ _ _ SP syms syms' = true /\ length points = 10 /\
    Forall (fun env => map fst env = syms /\ Forall (fun p => gives (op_rng _ _ _ _ _ SP rng) (snd p)) env /\ agree_at v w env) points.
(** A number is evaluated first; anything else stays. *)
Definition evaluated (v g : val) : Prop :=
  gives (op_is_number _ _ _ _ _ SP v) true /\ gives (op_evalf _ _ _ _ _ SP v []) g \/
  gives (op_is_number _ _ _ _ _ SP v) false /\ g = v.
Definition same_scalar (v w : val) : Prop :=
  exists g h, evaluated v g /\ evaluated w h /\
    (gives (op_expand_equal _ _ _ _ _ SP g h) true \/
     (exists d s, gives (op_sub _ _ _ _ _ SP g h) d /\
        (gives (op_is_number _ _ _ _ _ SP d) true /\ gives (op_evalf _ _ _ _ _ SP d []) s \/
         gives (op_is_number _ _ _ _ _ SP d) false /\ gives (op_simplify _ _ _ _ _ SP d) s) /\ small g s) \/
     (exists s l, gives (op_free_symbols _ _ _ _ _ SP g) (s :: l)) /\ (exists s l, gives (op_free_symbols _ _ _ _ _ SP h) (s :: l)) /\
     (agree RandInt g h \/ agree Uniform g h)).

(** A function equation: its left-hand side is a symbol or a named function, or the inverse of one. *)
Definition is_function (v : val) : Prop :=
  exists l r, v = VEq l r /\
    (gives (op_is_symbol _ _ _ _ _ SP l) true \/ gives (op_named_function _ _ _ _ _ SP l) true \/
     exists i, gives (op_inv _ _ _ _ _ SP l) i /\ gives (op_named_function _ _ _ _ _ SP i) true).
Definition side (v : val) : val := match v with VEq _ r => r | _ => v end.
Definition strict (o : relop) : option bool := match o with OpLt | OpGt => Some true | OpLe | OpGe => Some false | OpNe => None end.
(** the left-hand side less the right-hand side, turned so that the sign reads "at most" *)
Definition moved (o : relop) (l r d : val) : Prop :=
  match o with
  | OpLe | OpLt => gives (op_sub _ _ _ _ _ SP l r) d
  | OpGe | OpGt => gives (op_sub _ _ _ _ _ SP r l) d
  | OpNe => False
  end.
(** the imaginary unit put for the only symbol, i *)
Definition unit_put (v v' : val) : Prop :=
  exists s, gives (op_free_symbols _ _ _ _ _ SP v) [s] /\ op_sym_name _ _ _ _ _ SP s = u "i" /\ gives (op_subs_I _ _ _ _ _ SP v s) v'.

(** The evidence for an acceptance *)
Inductive accepted : val -> val -> Prop :=
| AList l l' : length l = length l' -> (forall a b, In (a, b) (combine l l') -> accepted a b) -> accepted (VList l) (VList l')
| ASet l l' : length l = length l' -> (forall a, In a l -> exists b, In b l' /\ accepted a b) -> accepted (VSet l) (VSet l')
| AEq l r l' r' d d' : gives (op_sub _ _ _ _ _ SP l r) d -> gives (op_sub _ _ _ _ _ SP l' r') d' ->
    (accepted d d' \/ exists n, gives (op_neg _ _ _ _ _ SP d) n /\ accepted n d') -> accepted (VEq l r) (VEq l' r')
| ARel o o' l r l' r' d d' : strict o = strict o' -> moved o l r d -> moved o' l' r' d' -> accepted d d' -> accepted (VRel o l r) (VRel o' l' r')
| AMat r c f g : (forall i j, i < r -> j < c -> accepted (f i j) (g i j)) -> accepted (VMat r c f) (VMat r c g)
| AMatList r c f l m g : gives (op_matrix _ _ _ _ _ SP l) m ->
    (m = (r, c, g) \/ exists h, m = (c, r, h) /\ g = (fun i j => h j i)) ->
    accepted (VMat r c f) (VMat r c g) -> accepted (VMat r c f) (VList l)
| AListMat r c f l m g : gives (op_matrix _ _ _ _ _ SP l) m ->
    (m = (r, c, g) \/ exists h, m = (c, r, h) /\ g = (fun i j => h j i)) ->
    accepted (VMat r c g) (VMat r c f) -> accepted (VList l) (VMat r c f)
| ACplx v w a b a' b' : gives (op_re _ _ _ _ _ SP v) a -> gives (op_im _ _ _ _ _ SP v) b ->
    gives (op_re _ _ _ _ _ SP w) a' -> gives (op_im _ _ _ _ _ SP w) b' -> accepted a a' -> accepted b b' -> accepted v w
| AUnit v w v' w' : (unit_put v v' \/ v' = v) -> (unit_put w w' \/ w' = w) -> accepted v' w' -> accepted v w
| AFunc v w : is_function v \/ is_function w -> accepted (side v) (side w) -> accepted v w
| AScalar v w : same_scalar v w -> accepted v w.

(** A reading of a text *)
Definition reading (s : pystr) (v : val) : Prop :=
  gives (op_latex2sympy _ _ _ _ _ SP s) v \/ gives (op_parse_latex _ _ _ _ _ SP s) v \/
  exists w, gives (op_parse_expr _ _ _ _ _ SP (flat_map (fun c => if N.eqb c 94 then u "**" else [c]) s)) w /\
    v = match w with VTuple l => if Nat.ltb 2 (length l) then VList l else w | _ => w end.

(** Nothing can be subtracted from None, nor None from anything; differences are no equations. *)
Definition sane : Prop := (forall v d, ~ gives (op_sub _ _ _ _ _ SP VNone v) d) /\ (forall v d, ~ gives (op_sub _ _ _ _ _ SP v VNone) d) /\
  (forall v w d l r, gives (op_sub _ _ _ _ _ SP v w) d -> d <> VEq l r).
End Spec.

(** ** Proof *)
Section Proof.
Context {St E Ob Sym Num : Type}.
Variable SP : Sympy St E Ob Sym Num.
Notation val := (pyval E Ob).
Hypothesis HS : sane SP.

Lemma try_bare_inv {A} (m h : M St A) st a st' : try_bare m h st = (Ret a, st') -> m st = (Ret a, st') \/ exists st1, h st1 = (Ret a, st').
Proof. unfold try_bare. destruct (m st) as [[b|e] st1]; intro H; [left; exact H|right; exists st1; exact H]. Qed.
Lemma try_except_inv {A} (m h : M St A) st a st' : try_except m h st = (Ret a, st') -> m st = (Ret a, st') \/ exists st1, h st1 = (Ret a, st').
Proof. unfold try_except. destruct (m st) as [[b|e] st1]; [intro H; left; exact H|]. destruct (is_Exception e); intro H; [right; exists st1; exact H|discriminate]. Qed.
Lemma attr_inv {A} v (m : M St A) st a st' : attr (E := E) (Ob := Ob) v m st = (Ret a, st') -> m st = (Ret a, st') /\ v <> VNone.
Proof. unfold attr. destruct v; intro H; try discriminate H; (split; [exact H|discriminate]). Qed.
Lemma as_bool_inv c st a st' : as_bool (St := St) c st = (Ret a, st') -> c = Some a /\ st' = st.
Proof. destruct c as [b|]; intro H; [injection H as <- <-; split; reflexivity|discriminate H]. Qed.
Lemma ret_inv {A} (x a : A) (st st' : St) : ret x st = (Ret a, st') -> x = a.
Proof. intro H. injection H as H _. exact H. Qed.
Lemma gv {A} (m : M St A) st a st' : m st = (Ret a, st') -> gives m a.
Proof. intro H. exists st, st'. exact H. Qed.
Ltac stp := match goal with
  | H : bind _ _ _ = (Ret _, _) |- _ => apply bind_inv in H; destruct H as (? & ? & ? & H)
  | H : as_bool _ _ = (Ret _, _) |- _ => apply as_bool_inv in H; destruct H as [? ?]; subst
  | H : ret _ _ = (Ret _, _) |- _ => apply ret_inv in H; try discriminate H
  | H : raise _ _ = (Ret _, _) |- _ => discriminate H
  | H : attr _ _ _ = (Ret _, _) |- _ => apply attr_inv in H; destruct H as [H ?]
  end.
Ltac gvs := repeat match goal with H : ?m ?st = (Ret ?a, ?st') |- _ => apply gv in H end.

Lemma zero_inv d st st' : is_sympy_zero SP d st = (Ret true, st') -> zero SP d.
Proof.
  unfold is_sympy_zero, zero. destruct d; intro H; repeat stp.
  - destruct x; [left; gvs; assumption|]. repeat stp. destruct x as [[|]|]; try discriminate H. right. gvs. assumption.
  - destruct x as [[|]|]; try discriminate H. right. gvs. assumption.
Qed.
Lemma abs_inv v a st st' : sympy_abs SP v st = (Ret a, st') -> gives (op_abs _ _ _ _ _ SP v) a.
Proof. intro H. apply try_except_inv in H. destruct H as [H|[? H]]; [gvs; exact H|discriminate H]. Qed.
Lemma evalf_inv v env a st st' : sympy_evalf SP v env st = (Ret a, st') -> a <> VNone -> gives (op_evalf _ _ _ _ _ SP v env) a.
Proof. intros H N. apply try_except_inv in H. destruct H as [H|[? H]]; [stp; gvs; exact H|apply ret_inv in H; congruence]. Qed.
Lemma tiny_inv v t st st' : abs_smaller SP v t st = (Ret (Some true), st') -> tiny SP v t.
Proof.
  intro H. apply try_bare_inv in H. destruct H as [H|[? H]]; [|apply ret_inv in H; discriminate H].
  apply bind_inv in H. destruct H as (a & s1 & H1 & H). apply abs_inv in H1. exists a. split; [exact H1|].
  apply bind_inv in H. destruct H as (c & s2 & H2 & H). apply bind_inv in H. destruct H as (b & s3 & H3 & H). apply as_bool_inv in H3. destruct H3 as [-> ->].
  destruct b; [left; gvs; assumption|]. right. apply bind_inv in H. destruct H as (e & s4 & H4 & H).
  assert (N : e <> VNone) by (intros ->; discriminate H). apply evalf_inv in H4; [|exact N]. exists e. split; [exact H4|]. destruct e; gvs; try assumption. congruence.
Qed.
Ltac bi H a s H1 := apply bind_inv in H; destruct H as (a & s & H1 & H).
Lemma small_inv g d st st' : diff_equal SP g d st = (Ret (Some true), st') -> small SP g d.
Proof.
  unfold diff_equal, small. intro H. bi H z s1 H1. destruct z; [left; eapply zero_inv; exact H1|]. right. clear H1.
  bi H n s2 H2. apply attr_inv in H2. destruct H2 as [H2 _]. destruct n; [|apply ret_inv in H; discriminate H]. split; [exact (gv _ _ _ _ H2)|]. clear H2.
  bi H fs s3 H3. apply attr_inv in H3. destruct H3 as [H3 _]. bi H i s4 H4. destruct i.
  - left. split; [eapply tiny_inv; exact H|]. destruct fs as [|f fs].
    + apply attr_inv in H4. left. exact (gv _ _ _ _ (proj1 H4)).
    + right. exists f, fs. exact (gv _ _ _ _ H3).
  - right. assert (N : gives (op_is_Integer _ _ _ _ _ SP g) false).
    { destruct fs; [|apply ret_inv in H4; discriminate H4]. apply attr_inv in H4. exact (gv _ _ _ _ (proj1 H4)). }
    bi H a s5 H5. apply abs_inv in H5. bi H c s6 H6. bi H b s7 H7. apply as_bool_inv in H7. destruct H7 as [-> ->]. destruct b.
    + left. split; [eapply tiny_inv; exact H|]. split; [|exact N]. exists a. split; [exact H5|exact (gv _ _ _ _ H6)].
    + right. bi H m s8 H8. destruct m; [|apply ret_inv in H; discriminate H].
      bi H a' s9 H9. apply abs_inv in H9. bi H p s10 H10. bi H p' s11 H11. apply as_bool_inv in H11. destruct H11 as [-> ->].
      destruct p'; [|apply ret_inv in H; discriminate H]. bi H q s12 H12. exists q, a'. split; [exact (gv _ _ _ _ H12)|].
      split; [eapply tiny_inv; exact H|]. split; [exact H9|]. split; [exact (gv _ _ _ _ H10)|exact N].
Qed.
Lemma draw_inv rng syms env st st' : draw SP rng syms st = (Ret env, st') -> map fst env = syms /\ Forall (fun p => gives (op_rng _ _ _ _ _ SP rng) (snd p)) env.
Proof.
  revert env st st'. induction syms as [|s syms IH]; intros env st st' H; cbn [draw] in H.
  - apply ret_inv in H. subst. split; [reflexivity|constructor].
  - bi H x s1 H1. bi H l s2 H2. apply ret_inv in H. subst env. destruct (IH _ _ _ H2) as [<- F]. split; [reflexivity|]. constructor; [exact (gv _ _ _ _ H1)|exact F].
Qed.
Lemma sample_inv rng v w syms n st st' : sample SP rng v w syms n st = (Ret true, st') -> exists points, length points = n /\
  Forall (fun env => map fst env = syms /\ Forall (fun p => gives (op_rng _ _ _ _ _ SP rng) (snd p)) env /\ agree_at SP v w env) points.
Proof.
  revert st st'. induction n as [|n IH]; intros st st' H; [exists []; split; [reflexivity|constructor]|].
  cbn [sample] in H. bi H env s1 H1. bi H a s2 H2. bi H b s3 H3.
  assert (Na : a <> VNone) by (intros ->; apply ret_inv in H; discriminate H).
  assert (Nb : b <> VNone) by (intros ->; destruct a; apply ret_inv in H; discriminate H).
  assert (H' : exists d s4, op_sub _ _ _ _ _ SP a b s3 = (Ret d, s4) /\ exists s5, diff_equal SP a d s4 = (Ret (Some true), s5) /\ sample SP rng v w syms n s5 = (Ret true, st')).
  { destruct a; try congruence; destruct b; try congruence; bi H d s4 H4; exists d, s4; (split; [exact H4|]); bi H r s5 H5; bi H c s6 H6; apply as_bool_inv in H6; destruct H6 as [-> ->];
      (destruct c; [|apply ret_inv in H; discriminate H]); exists s5; split; assumption. }
  clear H. destruct H' as (d & s4 & H4 & s5 & H5 & H6). destruct (IH _ _ H6) as (points & L & F). exists (env :: points). split; [cbn; rewrite L; reflexivity|].
  destruct (draw_inv _ _ _ _ _ H1) as [D1 D2]. constructor; [|exact F]. split; [exact D1|]. split; [exact D2|].
  exists a, b, d. split; [eapply evalf_inv; [exact H2|exact Na]|]. split; [eapply evalf_inv; [exact H3|exact Nb]|]. split; [exact Na|]. split; [exact Nb|].
  split; [exact (gv _ _ _ _ H4)|]. eapply small_inv; exact H5.
Qed.
Lemma agree_gen n rng v w st st' : (f1 <- attr v (op_free_symbols _ _ _ _ _ SP v) ;; f2 <- attr w (op_free_symbols _ _ _ _ _ SP w) ;;
  if negb (op_same_symbols _ _ _ _ _ SP f1 f2) then ret false else sample SP rng v w f1 n) st = (Ret true, st') ->
  exists syms syms' points, gives (op_free_symbols _ _ _ _ _ SP v) syms /\ gives (op_free_symbols _ _ _ _ _ SP w) syms' /\
    op_same_symbols _ _ _ _ _ SP syms syms' = true /\ length points = n /\
    Forall (fun env => map fst env = syms /\ Forall (fun p => gives (op_rng _ _ _ _ _ SP rng) (snd p)) env /\ agree_at SP v w env) points.
Proof.
  intro H. bi H f1 s1 H1. apply attr_inv in H1. destruct H1 as [H1 _]. bi H f2 s2 H2. apply attr_inv in H2. destruct H2 as [H2 _].
  destruct (op_same_symbols _ _ _ _ _ SP f1 f2) eqn:S; cbn [negb] in H; [|apply ret_inv in H; discriminate H].
  pose proof (sample_inv _ _ _ _ _ _ _ H) as (ps & L & F). exists f1, f2, ps. split; [exact (gv _ _ _ _ H1)|]. split; [exact (gv _ _ _ _ H2)|]. split; [exact S|]. split; [exact L|exact F].
Qed.
Lemma agree_inv rng v w st st' : numerical_equal SP rng v w st = (Ret true, st') -> agree SP rng v w.
Proof. exact (agree_gen 10 rng v w st st'). Qed.
Lemma evaluated_inv v (n : bool) g st st' s0 s1 : attr v (op_is_number _ _ _ _ _ SP v) s0 = (Ret n, s1) ->
  (if n then sympy_evalf SP v [] else ret v) st = (Ret g, st') -> g <> VNone -> evaluated SP v g.
Proof.
  intros H1 H2 N. apply attr_inv in H1. destruct H1 as [H1 _]. destruct n.
  - left. split; [exact (gv _ _ _ _ H1)|]. eapply evalf_inv; [exact H2|exact N].
  - right. split; [exact (gv _ _ _ _ H1)|]. apply ret_inv in H2. congruence.
Qed.
Lemma simplify_inv d s st st' : sympy_simplify SP d st = (Ret s, st') ->
  gives (op_is_number _ _ _ _ _ SP d) true /\ gives (op_evalf _ _ _ _ _ SP d []) s \/ gives (op_is_number _ _ _ _ _ SP d) false /\ gives (op_simplify _ _ _ _ _ SP d) s.
Proof.
  unfold sympy_simplify. intro H. apply try_except_inv in H. destruct H as [H|[? H]]; [|discriminate H]. apply attr_inv in H. destruct H as [H _].
  bi H b s1 H1. destruct b; [left|right]; (split; [exact (gv _ _ _ _ H1)|exact (gv _ _ _ _ H)]).
Qed.
Lemma scalar_inv v w st st' : scalar_equal SP v w st = (Ret true, st') -> same_scalar SP v w.
Proof.
  destruct HS as (S1 & S2 & _).
  unfold scalar_equal. intro H. bi H n1 s1 H1. bi H g s2 H2. bi H n2 s3 H3. bi H h s4 H4. bi H e s5 H5. exists g, h.
  destruct e.
  { apply try_bare_inv in H5. destruct H5 as [H5|[? H5]]; [|discriminate H5]. apply try_except_inv in H5. destruct H5 as [H5|[? H5]]; [|discriminate H5].
    apply attr_inv in H5. destruct H5 as [H5 Ng]. apply attr_inv in H5. destruct H5 as [H5 Nh].
    split; [exact (evaluated_inv _ _ _ _ _ _ _ H1 H2 Ng)|]. split; [exact (evaluated_inv _ _ _ _ _ _ _ H3 H4 Nh)|]. left. exact (gv _ _ _ _ H5). }
  bi H d s6 H6. bi H b s7 H7. apply as_bool_inv in H7. destruct H7 as [-> ->]. destruct b.
  { apply try_bare_inv in H6. destruct H6 as [H6|[? H6]]; [|discriminate H6]. bi H6 x s8 H8. bi H6 y s9 H9.
    assert (Ng : g <> VNone) by (intros ->; exact (S1 _ _ (gv _ _ _ _ H8))). assert (Nh : h <> VNone) by (intros ->; exact (S2 _ _ (gv _ _ _ _ H8))).
    split; [exact (evaluated_inv _ _ _ _ _ _ _ H1 H2 Ng)|]. split; [exact (evaluated_inv _ _ _ _ _ _ _ H3 H4 Nh)|]. right. left.
    exists x, y. split; [exact (gv _ _ _ _ H8)|]. split; [exact (simplify_inv _ _ _ _ H9)|exact (small_inv _ _ _ _ H6)]. }
  apply try_bare_inv in H. destruct H as [H|[? H]]; [|discriminate H]. bi H f1 s8 H8. apply attr_inv in H8. destruct H8 as [H8 Ng].
  bi H f2 s9 H9. destruct f1 as [|x f1]; [discriminate H|]. apply attr_inv in H9. destruct H9 as [H9 Nh]. destruct f2 as [|y f2]; [discriminate H|].
  split; [exact (evaluated_inv _ _ _ _ _ _ _ H1 H2 Ng)|]. split; [exact (evaluated_inv _ _ _ _ _ _ _ H3 H4 Nh)|]. right. right.
  split; [exists x, f1; exact (gv _ _ _ _ H8)|]. split; [exists y, f2; exact (gv _ _ _ _ H9)|]. bi H b s10 H10. destruct b; [left; exact (agree_inv _ _ _ _ _ H10)|right; exact (agree_inv _ _ _ _ _ H)].
Qed.

(** Only function equations are tagged as functions. *)
Definition tag_ok (v : val) (t : atype) : Prop := t = TFunc -> is_function SP v.
Lemma type_tag v t st st' : get_sympy_type SP v st = (Ret t, st') -> tag_ok v t.
Proof.
  intros H ->. destruct v; cbn [get_sympy_type] in H; try discriminate H.
  - bi H i s1 H1. bi H f s2 H2. exists v1, v2. split; [reflexivity|]. destruct f; [right; left; exact (gv _ _ _ _ H2)|].
    bi H f' s3 H3. destruct f'; [right; right; exists i; split; [exact (gv _ _ _ _ H1)|exact (gv _ _ _ _ H3)]|].
    bi H y s4 H4. destruct y; [left; exact (gv _ _ _ _ H4)|discriminate H].
  - bi H b s1 H1. destruct b; discriminate H.
Qed.
Lemma type_not_func v t st st' : get_sympy_type SP v st = (Ret t, st') -> (forall l r, v <> VEq l r) -> t <> TFunc.
Proof. intros H N ->. destruct (type_tag _ _ _ _ H eq_refl) as (l & r & -> & _). exact (N l r eq_refl). Qed.

Definition sound (rec : val -> val -> atype -> atype -> M St bool) : Prop :=
  forall v w t t' st st', tag_ok v t -> tag_ok w t' -> rec v w t t' st = (Ret true, st') -> accepted SP v w.
Lemma typed_sound rec : sound rec -> forall v w st st', typed SP rec v w st = (Ret true, st') -> accepted SP v w.
Proof. intros R v w st st' H. unfold typed in H. bi H t1 s1 H1. bi H t2 s2 H2. exact (R _ _ _ _ _ _ (type_tag _ _ _ _ H1) (type_tag _ _ _ _ H2) H). Qed.
Lemma vec_sound (cmp : val -> val -> M St bool) : (forall v w st st', cmp v w st = (Ret true, st') -> accepted SP v w) ->
  forall l l' st st', vec_all cmp l l' st = (Ret true, st') -> forall a b, In (a, b) (combine l l') -> accepted SP a b.
Proof.
  intros R l. induction l as [|x l IH]; intros [|y l'] st st' H a b Hi; [destruct Hi|destruct Hi|destruct Hi|]. cbn [vec_all] in H. bi H r s1 H1. destruct r; [|discriminate H].
  destruct Hi as [Hi|Hi]; [injection Hi as <- <-; exact (R _ _ _ _ H1)|exact (IH _ _ _ H _ _ Hi)].
Qed.
Lemma any_sound (P : val -> Prop) (cmp : val -> M St bool) : (forall w st st', cmp w st = (Ret true, st') -> P w) ->
  forall l st st', set_any cmp l st = (Ret true, st') -> exists b, In b l /\ P b.
Proof.
  intros R l. induction l as [|y l IH]; intros st st' H; [discriminate H|]. cbn [set_any] in H. bi H r s1 H1. destruct r.
  - exists y. split; [left; reflexivity|exact (R _ _ _ H1)].
  - destruct (IH _ _ H) as (b & Hb & Pb). exists b. split; [right; exact Hb|exact Pb].
Qed.
Lemma set_sound rec : sound rec -> forall l l' st st', set_all SP rec l l' st = (Ret true, st') -> forall a, In a l -> exists b, In b l' /\ accepted SP a b.
Proof.
  intros R l. induction l as [|x l IH]; intros l' st st' H a Hi; [destruct Hi|]. cbn [set_all] in H. bi H t1 s1 H1. bi H r s2 H2. destruct r; [|discriminate H].
  destruct Hi as [<-|Hi]; [|exact (IH _ _ _ H _ Hi)].
  refine (any_sound (accepted SP x) _ _ _ _ _ H2). intros w q q' Hc. bi Hc t2 s3 H3. exact (R _ _ _ _ _ _ (type_tag _ _ _ _ H1) (type_tag _ _ _ _ H3) Hc).
Qed.
Lemma mat_sound (cmp : val -> val -> M St bool) f g : (forall v w st st', cmp v w st = (Ret true, st') -> accepted SP v w) ->
  forall ps st st', mat_all cmp f g ps st = (Ret true, st') -> forall i j, In (i, j) ps -> accepted SP (f i j) (g i j).
Proof.
  intros R ps. induction ps as [|[i j] ps IH]; intros st st' H i' j' Hi; [destruct Hi|]. cbn [mat_all] in H. bi H r s1 H1. destruct r; [|discriminate H].
  destruct Hi as [Hi|Hi]; [injection Hi as <- <-; exact (R _ _ _ _ H1)|exact (IH _ _ H _ _ Hi)].
Qed.
Lemma positions_in r c i j : i < r -> j < c -> In (i, j) (positions r c).
Proof. intros Hi Hj. apply in_prod; apply in_seq; lia. Qed.
Lemma moved_inv o l r d st st' : ineq_to_expr SP o l r st = (Ret d, st') -> moved SP o l r d.
Proof. destruct o; cbn; intro H; try exact (gv _ _ _ _ H). discriminate H. Qed.
Lemma only_i_inv v p st st' : expr_with_only_i SP v st = (Ret p, st') -> unit_put SP v (fst p) /\ snd p = true \/ fst p = v /\ snd p = false.
Proof.
  unfold expr_with_only_i. intro H. bi H fs s1 H1. destruct fs as [|s [|s' fs]]; try (apply ret_inv in H; subst; right; split; reflexivity).
  destruct (str_eqb (op_sym_name _ _ _ _ _ SP s) (u "i")) eqn:Q; [|apply ret_inv in H; subst; right; split; reflexivity].
  bi H w s2 H2. apply ret_inv in H. subst. left. split; [|reflexivity]. exists s. split; [exact (gv _ _ _ _ H1)|]. split; [exact (proj1 (str_eqb_eq _ _) Q)|exact (gv _ _ _ _ H2)].
Qed.
Lemma no_tag v t : t <> TFunc -> tag_ok v t.
Proof. intros N H. contradiction. Qed.
Lemma tag_eqb t t' : atype_eqb t t' = true -> t = t'. Proof. destruct t, t'; cbn; congruence. Qed.
Lemma matrices_same rec r c f r' c' g st st' : body SP rec (VMat r c f) (VMat r' c' g) TMat TMat st = (Ret true, st') -> r' = r /\ c' = c.
Proof.
  cbn [body vec_or_set both atype_eqb andb orb negb]. destruct (Nat.eqb r' r) eqn:R; [|intro H; discriminate H]. destruct (Nat.eqb c' c) eqn:C; [|intro H; discriminate H].
  intros _. split; apply Nat.eqb_eq; assumption.
Qed.
Lemma to_mat_inv l r c m st st' : list_to_mat SP l r c st = (Ret m, st') ->
  exists r0 c0 h, gives (op_matrix _ _ _ _ _ SP l) (r0, c0, h) /\ (m = VMat r0 c0 h /\ r0 = r /\ c0 = c \/ m = VMat c0 r0 (fun i j => h j i)).
Proof.
  unfold list_to_mat. intro H. bi H x s1 H1. destruct x as [[r0 c0] h]. exists r0, c0, h. split; [exact (gv _ _ _ _ H1)|].
  destruct (Nat.eqb r0 r && Nat.eqb c0 c) eqn:Q.
  - apply andb_true_iff in Q. destruct Q as [Q1 Q2]. apply Nat.eqb_eq in Q1. apply Nat.eqb_eq in Q2. apply ret_inv in H. left. auto.
  - destruct (_ || _); [|discriminate H]. apply ret_inv in H. right. auto.
Qed.
Lemma equal_sound n : sound (equal_sympy SP n).
Proof.
  induction n as [|n IH]; intros v w t t' st st' Tv Tw H; [discriminate H|]. cbn [equal_sympy] in H. set (rec := equal_sympy SP n) in *.
  assert (Hmm : forall r c f r' c' g s s', rec (VMat r c f) (VMat r' c' g) TMat TMat s = (Ret true, s') -> r' = r /\ c' = c).
  { subst rec. destruct n; [discriminate|]. intros. eapply matrices_same. cbn [equal_sympy] in *. eassumption. }
  clearbody rec. unfold body in H.
  destruct (vec_or_set t && vec_or_set t' && negb (atype_eqb t t')); [discriminate H|].
  destruct (both t t' TVec).
  { destruct v; try discriminate H. destruct w; try discriminate H. destruct (Nat.eqb _ _) eqn:L; [|discriminate H]. apply Nat.eqb_eq in L.
    apply AList; [exact L|]. exact (vec_sound _ (typed_sound rec IH) _ _ _ _ H). }
  destruct (both t t' TSet).
  { destruct v; try discriminate H. destruct w; try discriminate H. destruct (Nat.eqb _ _) eqn:L; [|discriminate H]. apply Nat.eqb_eq in L.
    apply ASet; [exact L|]. exact (set_sound rec IH _ _ _ _ H). }
  destruct (both t t' TEqul).
  { destruct v; try discriminate H. destruct w; try discriminate H. bi H a s1 H1. bi H b s2 H2. bi H ta s3 H3. bi H tb s4 H4. bi H x s5 H5.
    apply gv in H1. apply gv in H2. assert (Na : ta <> TFunc) by (apply (type_not_func _ _ _ _ H3); intros l r; exact (proj2 (proj2 HS) _ _ _ l r H1)).
    apply (AEq SP _ _ _ _ a b); [exact H1|exact H2|]. destruct x.
    - left. exact (IH _ _ _ _ _ _ (type_tag _ _ _ _ H3) (type_tag _ _ _ _ H4) H5).
    - right. bi H m s6 H6. exists m. split; [exact (gv _ _ _ _ H6)|]. exact (IH _ _ _ _ _ _ (no_tag _ _ Na) (type_tag _ _ _ _ H4) H). }
  destruct (both t t' TIneq).
  { destruct v as [| | | |o l r| | | |]; try discriminate H. destruct w as [| | | |o' l' r'| | | |]; try discriminate H.
    destruct (is_le_ge o && is_le_ge o' || is_lt_gt o && is_lt_gt o') eqn:Q.
    - bi H a s1 H1. bi H b s2 H2. apply (ARel SP _ _ _ _ _ _ a b).
      + destruct o, o'; try discriminate Q; reflexivity.
      + exact (moved_inv _ _ _ _ _ _ H1).
      + exact (moved_inv _ _ _ _ _ _ H2).
      + exact (typed_sound rec IH _ _ _ _ H).
    - bi H a s1 H1. bi H b s2 H2. destruct o; cbn in H1; try discriminate H1. apply ret_inv in H1. subst a. discriminate H2. }
  destruct (both t t' TMat).
  { destruct v as [| | | | | |r c f| |]; try discriminate H. destruct w as [| | | | | |r' c' g| |]; try discriminate H.
    destruct (Nat.eqb r' r) eqn:R; [|discriminate H]. destruct (Nat.eqb c' c) eqn:C; [|discriminate H]. apply Nat.eqb_eq in R. apply Nat.eqb_eq in C. subst r' c'.
    apply AMat. intros i j Hi Hj. exact (mat_sound _ _ _ (typed_sound rec IH) _ _ _ H _ _ (positions_in _ _ _ _ Hi Hj)). }
  assert (TM : forall x : val, tag_ok x TMat) by (intros x Q; discriminate Q).
  destruct (atype_eqb t TMat && atype_eqb t' TVec).
  { destruct v as [| | | | | |r c f| |]; try discriminate H. destruct w; try discriminate H. apply try_bare_inv in H. destruct H as [H|[? H]]; [|discriminate H].
    bi H m s1 H1. destruct (to_mat_inv _ _ _ _ _ _ H1) as (r0 & c0 & h & Gm & [(-> & -> & ->)| -> ]).
    - apply (AMatList SP r c f l _ h Gm); [left; reflexivity|]. exact (IH _ _ _ _ _ _ (TM _) (TM _) H).
    - destruct (Hmm _ _ _ _ _ _ _ _ H) as [-> ->]. apply (AMatList SP r c f l _ (fun i j => h j i) Gm); [right; exists h; split; reflexivity|]. exact (IH _ _ _ _ _ _ (TM _) (TM _) H). }
  destruct (atype_eqb t' TMat && atype_eqb t TVec).
  { destruct v; try discriminate H. destruct w as [| | | | | |r c f| |]; try discriminate H. apply try_bare_inv in H. destruct H as [H|[? H]]; [|discriminate H].
    bi H m s1 H1. destruct (to_mat_inv _ _ _ _ _ _ H1) as (r0 & c0 & h & Gm & [(-> & -> & ->)| -> ]).
    - apply (AListMat SP r c f l _ h Gm); [left; reflexivity|]. exact (IH _ _ _ _ _ _ (TM _) (TM _) H).
    - destruct (Hmm _ _ _ _ _ _ _ _ H) as [-> ->]. apply (AListMat SP c0 r0 f l _ (fun i j => h j i) Gm); [right; exists h; split; reflexivity|]. exact (IH _ _ _ _ _ _ (TM _) (TM _) H). }
  destruct (both t t' TCplx).
  { bi H a s1 H1. bi H b s2 H2. bi H a' s3 H3. bi H b' s4 H4. bi H t1 s5 H5. bi H t2 s6 H6. bi H t3 s7 H7. bi H t4 s8 H8. bi H x s9 H9.
    destruct x; [|discriminate H]. apply (ACplx SP _ _ a b a' b'); try (eapply gv; eassumption).
    - exact (IH _ _ _ _ _ _ (type_tag _ _ _ _ H5) (type_tag _ _ _ _ H7) H9).
    - exact (IH _ _ _ _ _ _ (type_tag _ _ _ _ H6) (type_tag _ _ _ _ H8) H). }
  bi H p s1 H1. destruct p as [[v' w'] cplx].
  assert (P : (unit_put SP v v' \/ v' = v) /\ (unit_put SP w w' \/ w' = w) /\ (cplx = false -> v' = v /\ w' = w)).
  { destruct (both t t' TExpr).
    - bi H1 p1 s2 H2. bi H1 p2 s3 H3. apply ret_inv in H1. injection H1 as <- <- <-. apply only_i_inv in H2. apply only_i_inv in H3.
      destruct H2 as [[U2 ->]|[-> ->]], H3 as [[U3 ->]|[-> ->]]; cbn [orb]; (split; [first [left; assumption|right; reflexivity]|]); (split; [first [left; assumption|right; reflexivity]|]); intro Q; try discriminate Q; split; reflexivity.
    - apply ret_inv in H1. injection H1 as <- <- <-. auto. }
  destruct cplx.
  { apply (AUnit SP _ _ v' w'); [apply P|apply P|]. refine (IH _ _ _ _ _ _ _ _ H); intro Q; discriminate Q. }
  destruct (proj2 (proj2 P) eq_refl) as [-> ->]. clear P.
  destruct (atype_eqb t TFunc || atype_eqb t' TFunc) eqn:Q; [|apply AScalar; exact (scalar_inv _ _ _ _ H)].
  bi H p1 s2 H2. bi H p2 s3 H3.
  assert (K : forall (x : val) tx p q q', tag_ok x tx -> (match x with VEq _ r => t0 <- get_sympy_type SP r ;; ret (r, t0) | _ => ret (x, tx) end) q = (Ret p, q') -> fst p = side x /\ tag_ok (fst p) (snd p)).
  { intros x tx p q q' Hx Hq. destruct x; cbn [side]; try (apply ret_inv in Hq; subst p; split; [reflexivity|exact Hx]).
    bi Hq t0 q1 Q1. apply ret_inv in Hq. subst p. split; [reflexivity|exact (type_tag _ _ _ _ Q1)]. }
  destruct (K _ _ _ _ _ Tv H2) as [E1 K1]. destruct (K _ _ _ _ _ Tw H3) as [E2 K2].
  apply AFunc; [|rewrite <- E1, <- E2; exact (IH _ _ _ _ _ _ K1 K2 H)].
  apply orb_true_iff in Q. destruct Q as [Q|Q]; apply tag_eqb in Q; [left; exact (Tv Q)|right; exact (Tw Q)].
Qed.
Lemma any_gv_sound (P : val -> Prop) (cmp : val -> val -> M St bool) g : (forall w st st', cmp g w st = (Ret true, st') -> P w) ->
  forall l st st', any_gv cmp g l st = (Ret true, st') -> exists b, In (Some b) l /\ P b.
Proof.
  intros R l. induction l as [|[y|] l IH]; intros st st' H; [discriminate H| |].
  - cbn [any_gv] in H. bi H r s1 H1. destruct r; [exists y; split; [left; reflexivity|exact (R _ _ _ H1)]|].
    destruct (IH _ _ H) as (b & Hb & Pb). exists b. split; [right; exact Hb|exact Pb].
  - destruct (IH _ _ H) as (b & Hb & Pb). exists b. split; [right; exact Hb|exact Pb].
Qed.
Lemma any_gt_sound (P : val -> val -> Prop) (cmp : val -> val -> M St bool) : (forall v w st st', cmp v w st = (Ret true, st') -> P v w) ->
  forall l l' st st', any_gt cmp l l' st = (Ret true, st') -> exists a b, In (Some a) l /\ In (Some b) l' /\ P a b.
Proof.
  intros R l l'. induction l as [|[y|] l IH]; intros st st' H; [discriminate H| |].
  - cbn [any_gt] in H. bi H r s1 H1. destruct r.
    + destruct (any_gv_sound (P y) cmp y (R y) _ _ _ H1) as (b & Hb & Pb). exists y, b. split; [left; reflexivity|split; assumption].
    + destruct (IH _ _ H) as (a & b & Ha & Hb & Pb). exists a, b. split; [right; exact Ha|split; assumption].
  - destruct (IH _ _ H) as (a & b & Ha & Hb & Pb). exists a, b. split; [right; exact Ha|split; assumption].
Qed.
Lemma dedup_inv other cur st st' r : (match other with
    | None => ret cur
    | Some o =>
      t <- op_truthy _ _ _ _ _ SP o ;;
      if t then
        match cur with
        | None => ret None
        | Some c => b <- op_eq _ _ _ _ _ SP c o ;; ret (if b then None else Some c)
        end
      else ret cur
    end) st = (Ret r, st') -> r = cur \/ r = None.
Proof.
  destruct other as [o|]; intro H; [|apply ret_inv in H; left; congruence]. bi H t s1 H1. destruct t; [|apply ret_inv in H; left; congruence].
  destruct cur as [c|]; [|apply ret_inv in H; left; congruence]. bi H b s2 H2. apply ret_inv in H. destruct b; [right|left]; congruence.
Qed.
Lemma try_some_inv (m : M St val) st r st' : try_bare (v <- m ;; ret (Some v)) (ret None) st = (Ret r, st') -> forall v, r = Some v -> gives m v.
Proof.
  intros H v ->. apply try_bare_inv in H. destruct H as [H|[? H]]; [|discriminate H]. bi H w s1 H1. apply ret_inv in H. injection H as ->. exact (gv _ _ _ _ H1).
Qed.
Lemma reading_inv s l st st' v : sympy_parse SP s st = (Ret l, st') -> In (Some v) l -> reading SP s v.
Proof.
  unfold sympy_parse. intros H Hi. bi H c1 s1 H1. bi H c2 s2 H2. bi H c3 s3 H3. apply ret_inv in H. subst l.
  destruct Hi as [Hi|[Hi|[Hi|[]]]].
  - left. exact (try_some_inv _ _ _ _ H1 _ Hi).
  - right. left. destruct c1; [apply ret_inv in H2; congruence|]. exact (try_some_inv _ _ _ _ H2 _ Hi).
  - right. right. apply try_bare_inv in H3. destruct H3 as [H3|[? H3]]; [|apply ret_inv in H3; congruence].
    bi H3 w s4 H4. exists w. change (u "^") with [94%N] in H4. rewrite (replace_char 94 (u "**")) in H4. split; [exact (gv _ _ _ _ H4)|].
    cbv zeta in H3. bi H3 c s5 H5. pose proof (dedup_inv c1 (Some _) _ _ _ H5) as H5'. clear H5. rename H5' into H5. apply dedup_inv in H3. subst c3. destruct H3 as [H3|H3]; [|congruence]. subst c. destruct H5 as [H5|H5]; [|congruence].
    injection H5 as ->. reflexivity.
Qed.
Theorem acceptance n gt gv st st' : are_equal_under_sympy_repo SP n gt gv st = (Ret true, st') ->
  exists v w, reading SP gt v /\ reading SP gv w /\ accepted SP v w.
Proof.
  unfold are_equal_under_sympy_repo. intro H. apply try_bare_inv in H. destruct H as [H|[? H]]; [|discriminate H]. bi H b s1 H1. apply ret_inv in H. subst b.
  unfold are_equal_with_simplify in H1. bi H1 c1 s2 H2. bi H1 c2 s3 H3.
  destruct (any_gt_sound _ _ (typed_sound _ (equal_sound n)) _ _ _ _ H1) as (v & w & Hv & Hw & P).
  exists v, w. split; [exact (reading_inv _ _ _ _ _ H2 Hv)|]. split; [exact (reading_inv _ _ _ _ _ H3 Hw)|exact P].
Qed.
End Proof.
