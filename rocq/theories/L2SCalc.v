(** The value of sums, products, limits, integrals, derivatives and evaluations at bounds.

    [Means]: the usual reading of such trees, with bound variables, over arbitrary operators of a calculus.
    [faithful_calc]: what SymPy's Sum, Product, Limit, Integral, Derivative and subs denote. *)
From Coq Require Import String List NArith ZArith QArith Bool Lia.
From Verif Require Import PyStr PyStrTheory Regex Normalize Monad L2S MonadTheory NumTheory SplitTheory L2STheory L2SState L2SValue.
Import ListNotations.
Local Open Scope mon_scope.
Local Close Scope Q_scope.

(** An arithmetic with operators on functions; nothing is assumed of them. *)
Record calculus (A : Type) := {
  arith_of :> arithmetic A;
  bigsum : (A -> A) -> A -> A -> A;              (* term, first and last index *)
  bigprod : (A -> A) -> A -> A -> A;
  limit : bool -> (A -> A) -> A -> A;            (* true: from below *)
  integral : (A -> A) -> A -> A -> A;            (* integrand, lower and upper bound *)
  primitive : (A -> A) -> A -> A;
  deriv : (A -> A) -> A -> A;                    (* function and point *)
  mul_minus_one : forall x, mul arith_of x (of_Q arith_of (-1)) = opp arith_of x
}.
Arguments arith_of {A}. Arguments bigsum {A}. Arguments bigprod {A}. Arguments limit {A}. Arguments integral {A}.
Arguments primitive {A}. Arguments deriv {A}.

Definition update {A} (rho : pystr -> A) (x : pystr) (a : A) : pystr -> A := fun y => if str_eqb x y then a else rho y.

(** dx or d\alpha, with blanks after the d *)
Definition blanks (s : pystr) : Prop := Forall (fun c => c = 32 \/ c = 13 \/ c = 10 \/ c = 9)%N s.
Inductive differential : pystr -> pystr -> Prop :=
| di_name b c x : blanks b -> ~ (c = 32 \/ c = 13 \/ c = 10 \/ c = 9 \/ c = 92)%N -> differential (100%N :: b ++ c :: x) (c :: x)
| di_command b x : blanks b -> differential (100%N :: b ++ 92%N :: x) x.

Section Calc.
Context {A : Type}.
Variable K : calculus A.
Variable V : Type.
Variable den : (pystr -> A) -> V -> A.
Variable values : list (pystr * pv V).
Variable hash : pystr -> pystr.

(** A variable alone *)
Inductive variable_tree : tree -> pystr -> Prop :=
| vt_symbol n s x : names n s x -> variable_tree (TSymbol n s None) x
| vt_juxt t x : variable_tree t x -> variable_tree (TJuxt [t]) x.
(** The lower part of d/dx or of a partial derivative *)
Inductive wrt : bool -> dlower -> pystr -> Prop :=
| wrt_d text x : differential text x -> wrt false (DDiff text) x
| wrt_partial x : wrt true (DPartial x) x.

Inductive Means : (pystr -> A) -> tree -> A -> Prop :=
| M_plain rho t a : Reads K V (den rho) rho values hash t a -> Means rho t a
| M_add rho s t a b : Means rho s a -> Means rho t b -> Means rho (TAdd s t) (add K a b)
| M_sub rho s t a b : Means rho s a -> Means rho t b -> Means rho (TSub s t) (sub K a b)
| M_times rho s t a b : Means rho s a -> Means rho t b -> Means rho (TTimes s t) (mul K a b)
| M_divide rho s t a b : Means rho s a -> Means rho t b -> Means rho (TDivide s t) (div K a b)
| M_frac rho s t a b d : Means rho s a -> Means rho t b -> Means rho (TFrac s t d DNone) (div K a b)
| M_pow rho s t a b : Means rho s a -> Means rho t b -> Means rho (TPow s t) (power K a b)
| M_minus rho s a : Means rho s a -> Means rho (TMinus s) (opp K a)
| M_group rho s a : Means rho s a -> Means rho (TGroup s) a
| M_abs rho s a : Means rho s a -> Means rho (TAbs s) (fn K (u "Abs") [a])
| M_sqrt rho s a : Means rho s a -> Means rho (TSqrt s None) (power K a (of_Q K (1 # 2)))
| M_juxt rho l a : MeansAll rho l a -> Means rho (TJuxt l) a
| M_trig rho f s a : In f trig_names -> Means rho s a -> Means rho (TFunc f [] None None s) (fn K f [a])
| M_exp rho s a : Means rho s a -> Means rho (TExp (Some s)) (fn K (u "exp") [a])
(* binders *)
| M_sum rho i x start stop body f a b : variable_tree i x -> (forall k, Means (update rho x k) body (f k)) ->
    Means rho start a -> Means rho stop b -> Means rho (TSum false i start stop body) (bigsum K f a b)
| M_prod rho i x start stop body f a b : variable_tree i x -> (forall k, Means (update rho x k) body (f k)) ->
    Means rho start a -> Means rho stop b -> Means rho (TSum true i start stop body) (bigprod K f a b)
| M_lim rho x minus at_ body f a : (forall k, Means (update rho x k) body (f k)) ->
    Means rho at_ a -> Means rho (TLim x minus at_ body) (limit K minus f a)
| M_int rho d x lo hi body f a b : differential d x -> (forall k, Means (update rho x k) body (f k)) ->
    Means rho lo a -> Means rho hi b -> Means rho (TInt (Some d) (Some (lo, hi)) (Some body)) (integral K f a b)
| M_int_one rho d x lo hi a b : differential d x ->
    Means rho lo a -> Means rho hi b -> Means rho (TInt (Some d) (Some (lo, hi)) None) (integral K (fun _ => of_Q K 1) a b)
| M_primitive rho d x body f : differential d x -> (forall k, Means (update rho x k) body (f k)) ->
    Means rho (TInt (Some d) None (Some body)) (primitive K f (rho x))
(* a difference of two values at an upper and a lower bound, both given by equations *)
| M_at rho e i j x y hi lo f g a b : variable_tree i x -> variable_tree j y ->
    (forall k, Means (update rho x k) e (f k)) -> (forall k, Means (update rho y k) e (g k)) ->
    Means rho hi b -> Means rho lo a -> Means rho (TAt e (Some (i, Some hi)) (Some (j, Some lo))) (sub K (f b) (g a))
| M_at_one rho e i x p f a : variable_tree i x -> (forall k, Means (update rho x k) e (f k)) -> Means rho p a ->
    Means rho (TAt e None (Some (i, Some p))) (f a)
| M_at_upper rho e i x p f a : variable_tree i x -> (forall k, Means (update rho x k) e (f k)) -> Means rho p a ->
    Means rho (TAt e (Some (i, Some p)) None) (f a)
with MeansAll : (pystr -> A) -> list tree -> A -> Prop :=
| M_one rho t a : Means rho t a -> MeansAll rho [t] a
| M_more rho t l a b : Means rho t a -> MeansAll rho l b -> MeansAll rho (t :: l) (mul K a b)
(* the operator d/dx before a product *)
| M_deriv rho up lo p dl x l f : wrt p dl x -> (forall k, MeansAll (update rho x k) l (f k)) ->
    MeansAll rho (TFrac up lo (UOperator p) dl :: l) (deriv K f (rho x)).
Scheme Means_mut := Minimality for Means Sort Prop with MeansAll_mut := Minimality for MeansAll Sort Prop.
Combined Scheme Means_both from Means_mut, MeansAll_mut.

Variable O : LSympy V.
Notation worth rho := (worth V (den rho) O).
Definition denotes (r : res (lv V)) (rho : pystr -> A) (a : A) : Prop := exists w, r = Ret (LV w) /\ worth rho w a.
(** v denotes the function f of x *)
Definition function_of (rho : pystr -> A) (x : pystr) (v : V) (f : A -> A) : Prop := forall k, worth (update rho x k) v (f k).
Record faithful_calc : Prop := {
  c_plain : forall rho, faithful K V (den rho) rho values hash O;
  c_sum : forall rho x r v f p q a b, function_of rho x v f -> worth rho p a -> worth rho q b ->
    denotes (o_call _ O (u "Sum") [LV v; LV (o_symbol _ O x r); LV p; LV q]) rho (bigsum K f a b);
  c_prod : forall rho x r v f p q a b, function_of rho x v f -> worth rho p a -> worth rho q b ->
    denotes (o_call _ O (u "Product") [LV v; LV (o_symbol _ O x r); LV p; LV q]) rho (bigprod K f a b);
  c_lim_below : forall rho x r v f p a, function_of rho x v f -> worth rho p a ->
    denotes (o_call _ O (u "Limit-") [LV v; LV (o_symbol _ O x r); LV p]) rho (limit K true f a);
  c_lim_above : forall rho x r v f p a, function_of rho x v f -> worth rho p a ->
    denotes (o_call _ O (u "Limit+") [LV v; LV (o_symbol _ O x r); LV p]) rho (limit K false f a);
  c_int : forall rho x r v f p q a b, function_of rho x v f -> worth rho p a -> worth rho q b ->
    denotes (o_call _ O (u "Integral") [LV v; LV (o_symbol _ O x r); LV p; LV q]) rho (integral K f a b);
  c_int_one : forall rho x r p q a b, worth rho p a -> worth rho q b ->
    denotes (o_call _ O (u "Integral") [LInt 1; LV (o_symbol _ O x r); LV p; LV q]) rho (integral K (fun _ => of_Q K 1) a b);
  c_primitive : forall rho x r v f, function_of rho x v f ->
    denotes (o_call _ O (u "Integral") [LV v; LV (o_symbol _ O x r)]) rho (primitive K f (rho x));
  c_deriv : forall rho x r v f, function_of rho x v f ->
    exists w, o_Derivative _ O (LV v) (o_symbol _ O x r) = Ret w /\ worth rho w (deriv K f (rho x));
  c_subs : forall rho x r v f p a, function_of rho x v f -> worth rho p a ->
    denotes (o_subs _ O (LV v) (LV (o_symbol _ O x r)) (LV p)) rho (f a)
}.
Hypothesis F : faithful_calc.
Variable l2s : pystr -> list (pystr * pv V) -> M (globals V) (lv V).
Notation yields rho := (yields V (den rho) values O).
Notation P rho := (c_plain F rho).

(** the same result for every value of the bound variable *)
Lemma yields_function rho x m f (k : lv V -> M (globals V) (lv V)) b :
  (forall a, yields (update rho x a) m (f a)) -> (forall v, function_of rho x v f -> yields rho (k (LV v)) b) -> yields rho (bind m k) b.
Proof.
  intros Hm Hk st E1 E2. destruct (Hm (rho x) st E1 E2) as (v & s & Es & W & E1' & E2').
  unfold bind. rewrite Es. apply Hk; [|assumption|assumption].
  intro a. destruct (Hm a st E1 E2) as (v' & s' & Es' & W' & _). rewrite Es in Es'. injection Es' as <- <-. exact W'.
Qed.
Lemma yields_denotes rho r a : denotes r rho a -> yields rho (lift_res r) a.
Proof. intros (w & -> & W). apply (yields_ret V (den rho) values O w a W). Qed.
Lemma conv_variable i x : variable_tree i x -> forall st, g_var st = [] -> conv O l2s i st = (Ret (LV (o_symbol _ O x (g_real st))), st).
Proof.
  induction 1 as [n s x H|t x H IH]; intros st E.
  - cbn [conv]. destruct (names_text _ _ _ H) as [-> ->]. unfold make_symbol, gets, bind, ret. rewrite E. reflexivity.
  - cbn [conv juxtapose]. unfold bind at 1. rewrite (IH st E). reflexivity.
Qed.
Lemma yields_variable_tree rho i x (k : lv V -> M (globals V) (lv V)) b : variable_tree i x ->
  (forall r, yields rho (k (LV (o_symbol _ O x r))) b) -> yields rho (bind (conv O l2s i) k) b.
Proof. intros H Hk st E1 E2. unfold bind. rewrite (conv_variable i x H st E1). apply Hk; assumption. Qed.
Lemma skip_blanks_app b s : blanks b -> skip_blanks (b ++ s) = skip_blanks s.
Proof.
  induction 1 as [|c b H _ IH]; [reflexivity|]. cbn [app skip_blanks].
  assert (is_blank c = true) as -> by (destruct H as [->|[->|[->| ->]]]; reflexivity). exact IH.
Qed.
Lemma differential_name text x (st : globals V) : differential text x -> differential_var text st = (Ret x, st).
Proof.
  intros [b c y B N|b y B]; unfold differential_var; cbn [skipn]; rewrite (skip_blanks_app b _ B); cbn [skip_blanks].
  - assert (is_blank c = false) as ->.
    { unfold is_blank. repeat rewrite orb_false_iff. repeat split; apply N.eqb_neq; intro E; apply N; tauto. }
    destruct (N.eq_dec c 92) as [->|E]; [exfalso; apply N; tauto|].
    unfold ret. destruct c as [|p]; [reflexivity|]. do 7 (destruct p as [p|p|]; try reflexivity). exfalso; apply E; reflexivity.
  - reflexivity.
Qed.
Lemma yields_opt rho (m : M (globals V) (lv V)) (k : option (lv V) -> M (globals V) (lv V)) b :
  yields rho (bind m (fun v => k (Some v))) b -> yields rho (bind (bind m (fun v => ret (Some v))) k) b.
Proof.
  intros H st E1 E2. destruct (H st E1 E2) as (v & s & Ev & W). exists v, s. split; [|exact W]. rewrite <- Ev.
  unfold bind. destruct (m st) as [[?|?] ?]; reflexivity.
Qed.
(** one bound of an evaluation *)
Lemma yields_side rho v i x f p a : function_of rho x v f -> variable_tree i x -> yields rho (conv O l2s p) a ->
  yields rho (at_side O (conv O l2s) (LV v) (i, Some p)) (f a).
Proof.
  intros Fx Hi Hp. unfold at_side. cbn [fst snd opt_conv]. apply (yields_variable_tree rho i x); [exact Hi|intro r].
  apply yields_opt, (yields_bind V _ _ _ _ _ a); [exact Hp|intros w Hw]. cbn [subst]. apply yields_denotes, (c_subs F); assumption.
Qed.
Lemma yields_times_minus_one rho w b : worth rho w b -> yields rho (mul_flat O (LV w) (LInt (-1))) (mul K b (of_Q K (-1))).
Proof.
  intros [Sw Dw]. unfold mul_flat, build. change (flat O (o_is_Mul V O) (LInt (-1))) with [@LInt V (-1)].
  destruct (flat_mul K V (den rho) rho values hash O (P rho) w Sw) as (y & l' & -> & F2 & D2).
  destruct (f_int _ _ _ _ _ _ _ (P rho) (-1)) as [Si Di].
  destruct (f_Mul _ _ _ _ _ _ _ (P rho) y (l' ++ [o_int V O (-1)])) as (r & Er & Wr).
  { change (Forall (scalar V O) ((y :: l') ++ [o_int V O (-1)])). apply Forall_app. split; [exact F2|constructor; [exact Si|constructor]]. }
  assert (S : forall l st, sympify_all O (map LV l ++ [LInt (-1)]) st = (Ret (l ++ [o_int V O (-1)]), st)).
  { induction l as [|z l IH]; intro st; [reflexivity|]. cbn [map app sympify_all]. unfold bind. cbn [sympify]. unfold ret at 1. rewrite IH. reflexivity. }
  intros st E1 E2. unfold bind. rewrite S. cbn [app]. unfold lift_res. rewrite Er. cbn. exists r, st. split; [reflexivity|]. split; [|auto].
  destruct Wr as [Sr Dr]. split; [exact Sr|]. rewrite Dr. change (y :: l' ++ [o_int V O (-1)]) with ((y :: l') ++ [o_int V O (-1)]).
  rewrite map_app, product_app, D2, Dw. cbn [map product fold_right]. rewrite mul_1_r, Di. reflexivity.
Qed.
Lemma derivative_operator p dl x st : wrt p dl x -> exists st', derivative O l2s (UOperator p) dl st = (Ret (Some (LL [LV (o_symbol _ O x (g_real st))])), st') /\
  g_var st' = g_var st /\ g_values st' = g_values st /\ check_derivative st' = (Ret tt, st').
Proof.
  intro H. exists {| g_real := g_real st; g_frac := g_frac st; g_variances := g_variances st; g_var := g_var st;
    g_values := g_values st; g_diff := Some (negb p); g_partial := Some p |}.
  split; [|split; [reflexivity|split; [reflexivity|destruct p; reflexivity]]].
  destruct H as [text y H|y]; [|reflexivity]. unfold derivative, bind at 1, set_flags at 1. unfold bind at 1.
  rewrite (differential_name text y _ H). reflexivity.
Qed.
Ltac one a v Hv := apply (yields_bind V _ _ _ _ _ a); [assumption|intros v Hv].
Ltac two a b v w Hv Hw := one a v Hv; one b w Hw.

Theorem calc_value : (forall rho t a, Means rho t a -> yields rho (conv O l2s t) a) /\
  (forall rho l a, MeansAll rho l a -> yields rho (juxtapose O (conv O l2s) l) a).
Proof.
  apply Means_both; intros; cbn [conv].
  - apply (proj1 (conv_value K V (den rho) rho values hash O (P rho) l2s)); assumption.
  - two a b v w Hv Hw. apply (yields_do_add K V _ rho values hash O (P rho)); assumption.
  - two a b v w Hv Hw. apply (yields_do_sub K V _ rho values hash O (P rho)); assumption.
  - two a b v w Hv Hw. apply (yields_do_mul K V _ rho values hash O (P rho)); assumption.
  - two a b v w Hv Hw. apply (yields_do_div K V _ rho values hash O (P rho)); assumption.
  - apply (yields_ext V _ _ _ (bind (set_flags (Some false) (Some false)) (fun _ => x <- conv O l2s s;; y <- conv O l2s t;; do_div O x y))); [reflexivity|].
    apply yields_flags. intros _. two a b v w Hv Hw. apply (yields_do_div K V _ rho values hash O (P rho)); assumption.
  - one a v Hv. cbn [is_list]. one b w Hw. apply (yields_pow K V _ rho values hash O (P rho)); assumption.
  - one a v Hv. intros st E1 E2. unfold do_neg, bind. rewrite (is_matrix_scalar V (den rho) O v a st Hv). apply (yields_negate K V _ rho values hash O (P rho) v a Hv st E1 E2).
  - assumption.
  - one a v Hv. apply (yields_call1 K V _ rho values hash O (P rho)); [apply one_of_true; reflexivity|assumption].
  - one a v Hv. apply (yields_pow K V _ rho values hash O (P rho)); [assumption|apply (f_half _ _ _ _ _ _ _ (P rho))].
  - assumption.
  - one a v Hv. destruct (trig_facts f H) as (_ & _ & _ & -> & _).
    intros st E1 E2. unfold apply_func, func_power, opt_conv.
    destruct (trig_facts f H) as (-> & -> & -> & -> & -> & -> & ->).
    unfold bind, ret. change trig with trig_names. rewrite (one_of_In f trig_names H).
    destruct (yields_call1 K V _ rho values hash O (P rho) f v a (trig_fns1 f H) Hv st E1 E2) as (w & s' & -> & W & X). exists w, s'. auto.
  - cbn [opt_conv]. intros st E1 E2. unfold bind at 1, bind at 1. destruct (H0 st E1 E2) as (p & s1 & -> & Wp & E1' & E2').
    apply (yields_call1 K V _ rho values hash O (P rho) (u "exp") p a (one_of_true (u "exp") fns1 eq_refl) Wp s1 E1' E2').
  - apply (yields_function rho x _ f); [assumption|intros v Hv]. apply (yields_variable_tree rho i x); [assumption|intro r].
    two a b p q Hp Hq. apply yields_denotes, (c_sum F); assumption.
  - apply (yields_function rho x _ f); [assumption|intros v Hv]. apply (yields_variable_tree rho i x); [assumption|intro r].
    two a b p q Hp Hq. apply yields_denotes, (c_prod F); assumption.
  - apply yields_gets. intro r. one a p Hp. apply (yields_function rho x _ f); [assumption|intros v Hv].
    apply yields_denotes. destruct minus; [apply (c_lim_below F)|apply (c_lim_above F)]; assumption.
  - apply (yields_function rho x _ f); [assumption|intros v Hv]. apply yields_gets. intro r.
    intros st E1 E2. unfold bind at 1, bind at 1. rewrite (differential_name d x st H). unfold ret at 1. cbn [fst snd]. revert st E1 E2.
    change (yields rho (x0 <- conv O l2s lo;; y <- conv O l2s hi;; call O (u "Integral") [LV v; LV (o_symbol V O x r); x0; y]) (integral K f a b)).
    two a b p q Hp Hq. apply yields_denotes, (c_int F); assumption.
  - intros st E1 E2. unfold bind at 1, ret at 1. revert st E1 E2. apply yields_gets. intro r.
    intros st E1 E2. unfold bind at 1, bind at 1. rewrite (differential_name d x st H). unfold ret at 1. cbn [fst snd]. revert st E1 E2.
    change (yields rho (x0 <- conv O l2s lo;; y <- conv O l2s hi;; call O (u "Integral") [LInt 1; LV (o_symbol V O x r); x0; y]) (integral K (fun _ => of_Q K 1) a b)).
    two a b p q Hp Hq. apply yields_denotes, (c_int_one F); assumption.
  - apply (yields_function rho x _ f); [assumption|intros v Hv]. apply yields_gets. intro r.
    intros st E1 E2. unfold bind at 1, bind at 1. rewrite (differential_name d x st H). unfold ret at 1. cbn [fst snd]. revert st E1 E2.
    apply yields_denotes, (c_primitive F); assumption.
  - intros st E1 E2. unfold bind at 1. destruct (H2 (rho x) st E1 E2) as (v & s1 & Ev & _ & V1 & V2). rewrite Ev.
    assert (Fx : function_of rho x v f).
    { intro k. destruct (H2 k st E1 E2) as (v' & s' & Ev' & W' & _). rewrite Ev in Ev'. injection Ev' as <- <-. exact W'. }
    assert (Fy : function_of rho y v g).
    { intro k. destruct (H4 k st E1 E2) as (v' & s' & Ev' & W' & _). rewrite Ev in Ev'. injection Ev' as <- <-. exact W'. }
    clear Ev. revert s1 V1 V2. cbn [opt_conv].
    match goal with |- forall s1, _ -> _ -> exists v' st', ?m s1 = _ /\ _ => change (yields rho m (sub K (f b) (g a))) end.
    apply yields_opt, (yields_bind V _ _ _ _ _ (f b)); [apply (yields_side rho v i x f hi b); assumption|]. intros w Hw.
    apply yields_opt, (yields_bind V _ _ _ _ _ (g a)); [apply (yields_side rho v j y g lo a); assumption|]. intros w' Hw'.
    rewrite sub_opp, <- mul_minus_one.
    apply (yields_bind V _ _ _ _ _ (mul K (g a) (of_Q K (-1)))); [apply yields_times_minus_one; assumption|]. intros z Hz.
    apply (yields_add_flat K V _ rho values hash O (P rho)); assumption.
  - apply (yields_function rho x _ f); [assumption|intros v Hv]. cbn [opt_conv].
    apply (yields_ext V _ _ _ (a0 <- (a0 <- at_side O (conv O l2s) (LV v) (i, Some p);; ret (Some a0));; match a0 with Some a1 => ret a1 | None => ret (LV v) end)); [reflexivity|].
    apply yields_opt, (yields_bind V _ _ _ _ _ (f a)); [apply (yields_side rho v i x f p a); assumption|]. intros w Hw. apply yields_ret, Hw.
  - apply (yields_function rho x _ f); [assumption|intros v Hv]. cbn [opt_conv].
    apply yields_opt, (yields_bind V _ _ _ _ _ (f a)); [apply (yields_side rho v i x f p a); assumption|]. intros w Hw.
    apply (yields_ext V _ _ _ (ret (LV w))); [reflexivity|]. apply yields_ret, Hw.
  - cbn [juxtapose]. one a v Hv. apply yields_ret, Hv.
  - cbn [juxtapose]. one a v Hv. destruct l as [|t' l']; [inversion H1|].
    one b w Hw. apply (yields_do_mul K V _ rho values hash O (P rho)); assumption.
  - destruct l as [|t' l']; [exfalso; specialize (H0 (rho x)); inversion H0|]. cbn [juxtapose conv].
    intros st E1 E2. unfold bind at 1. unfold bind at 1.
    destruct (derivative_operator p dl x st H) as (s1 & -> & V1 & V2 & Ck). cbn [ret]. unfold ret at 1.
    unfold bind at 1. rewrite Ck. rewrite E1 in V1. rewrite E2 in V2. generalize (g_real st); intro r. clear Ck. revert s1 V1 V2.
    match goal with |- forall s1, _ -> _ -> exists v' st', ?m s1 = _ /\ _ => change (yields rho m (deriv K f (rho x))) end.
    apply (yields_function rho x _ f); [assumption|intros v Hv].
    destruct (c_deriv F rho x r v f Hv) as (w & Ew & W).
    intros s1 V1 V2. unfold bind, sympify, ret, lift_res. rewrite Ew. exists w, s1. auto.
Qed.
End Calc.

(** A whole call *)
Theorem latex2sympy_calculus {A} (K : calculus A) V (O : LSympy V) den rho vs t a n s st :
  faithful_calc K V den vs (o_md5 _ O) O -> o_parse _ O (prepare s) = Ret (MRel (RExpr t)) ->
  Means K V den vs (o_md5 _ O) rho t a -> g_var st = [] ->
  exists v, fst (latex2sympy O (S n) s vs st) = Ret (LV v) /\ worth V (den rho) O v a.
Proof.
  intros F P R E. rewrite latex2sympy_head. unfold bind.
  destruct (head_rel Exact s vs st st) as (s1 & s1' & Hh & _ & Rl & Hs1); [split; cbn; reflexivity|].
  assert (g_var s1 = []) as E'. { revert Hh. unfold head, bind, gets, set_frac, set_values. intros [= <-]. exact E. }
  rewrite Hh. unfold rest, bind, lift_res. rewrite P. cbn [conv_rel].
  destruct (proj1 (calc_value K V den vs (o_md5 _ O) O F (latex2sympy O n)) rho t a R s1 E' Hs1) as (v & s2 & -> & W & _).
  exists v. auto.
Qed.
