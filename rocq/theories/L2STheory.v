(** Reasoning about the conversion of parse trees: induction over trees, and a theorem that lifts
    any property of computations closed under sequencing to the whole conversion. *)
From Coq Require Import String List NArith ZArith Bool Lia.
From Verif Require Import PyStr Regex Normalize Monad L2S MonadTheory.
Import ListNotations.
Local Open Scope mon_scope.

Definition olist {A} (o : option A) : list A := match o with Some a => [a] | None => [] end.
Definition pside (o : option (tree * option tree)) : list tree :=
  match o with Some (a, b) => a :: olist b | None => [] end.
Definition plims (o : option (tree * tree)) : list tree := match o with Some (a, b) => [a; b] | None => [] end.
(** Direct subtrees *)
Definition children (t : tree) : list tree :=
  match t with
  | TAdd a b | TSub a b | TTimes a b | TDivide a b | TMod a b | TBinom a b | TPow a b => [a; b]
  | TFracD a b | TFrac a b _ _ => [a; b]
  | TPlus a | TMinus a | TBang a | TTranspose a | TGroup a | TNorm a | TAbs a | TFloor a | TCeil a => [a]
  | TJuxt l => l
  | TAt a sup sub => a :: pside sup ++ pside sub
  | TMatrix rows ts => List.concat rows ++ flat_map olist ts
  | TDet rows => List.concat rows
  | TSymbol _ _ sup => olist sup
  | TConst _ | TNumber _ | TPercent _ | TDiff _ | TMathit _ | TVariable _ => []
  | TFunc _ _ sub sup arg => olist sub ++ olist sup ++ [arg]
  | TFuncs _ _ sup _ => olist sup
  | TApply _ sup _ => olist sup
  | TInt _ lims body => plims lims ++ olist body
  | TSqrt b r => b :: olist r
  | TSum _ i s e b => [i; s; e; b]
  | TLim _ _ a b => [a; b]
  | TExp sup => olist sup
  end.

Section Ind.
Variable P : tree -> Prop.
Hypothesis H : forall t, Forall P (children t) -> P t.
Definition all_list (f : forall t, P t) : forall l, Forall P l :=
  fix go l := match l with [] => Forall_nil P | a :: l' => Forall_cons a (f a) (go l') end.
Definition all_app l1 l2 (h1 : Forall P l1) (h2 : Forall P l2) : Forall P (l1 ++ l2) := proj2 (Forall_app P l1 l2) (conj h1 h2).
Definition all_olist (f : forall t, P t) o : Forall P (olist o) :=
  match o with Some a => Forall_cons a (f a) (Forall_nil P) | None => Forall_nil P end.
Definition all_pside (f : forall t, P t) o : Forall P (pside o) :=
  match o with Some (a, b) => Forall_cons a (f a) (all_olist f b) | None => Forall_nil P end.
Definition all_plims (f : forall t, P t) o : Forall P (plims o) :=
  match o with Some (a, b) => Forall_cons a (f a) (Forall_cons b (f b) (Forall_nil P)) | None => Forall_nil P end.
Definition all_concat (f : forall t, P t) : forall l, Forall P (List.concat l) :=
  fix go l := match l with [] => Forall_nil P | a :: l' => all_app a (List.concat l') (all_list f a) (go l') end.
Definition all_olists (f : forall t, P t) : forall l, Forall P (flat_map olist l) :=
  fix go l := match l with [] => Forall_nil P | a :: l' => all_app (olist a) (flat_map olist l') (all_olist f a) (go l') end.
Definition all2 (f : forall t, P t) a b : Forall P [a; b] := Forall_cons a (f a) (Forall_cons b (f b) (Forall_nil P)).
Definition all1 (f : forall t, P t) a : Forall P [a] := Forall_cons a (f a) (Forall_nil P).
Fixpoint tree_induction (t : tree) {struct t} : P t :=
  H t (match t return Forall P (children t) with
  | TAdd a b => all2 tree_induction a b | TSub a b => all2 tree_induction a b
  | TTimes a b => all2 tree_induction a b | TDivide a b => all2 tree_induction a b
  | TMod a b => all2 tree_induction a b | TBinom a b => all2 tree_induction a b | TPow a b => all2 tree_induction a b
  | TFracD a b => all2 tree_induction a b | TFrac a b _ _ => all2 tree_induction a b
  | TPlus a => all1 tree_induction a | TMinus a => all1 tree_induction a | TBang a => all1 tree_induction a
  | TTranspose a => all1 tree_induction a | TGroup a => all1 tree_induction a | TNorm a => all1 tree_induction a
  | TAbs a => all1 tree_induction a | TFloor a => all1 tree_induction a | TCeil a => all1 tree_induction a
  | TJuxt l => all_list tree_induction l
  | TAt a sup sub => Forall_cons a (tree_induction a) (all_app _ _ (all_pside tree_induction sup) (all_pside tree_induction sub))
  | TMatrix rows ts => all_app _ _ (all_concat tree_induction rows) (all_olists tree_induction ts)
  | TDet rows => all_concat tree_induction rows
  | TSymbol _ _ sup => all_olist tree_induction sup
  | TConst _ | TNumber _ | TPercent _ | TDiff _ | TMathit _ | TVariable _ => Forall_nil P
  | TFunc _ _ sub sup arg => all_app _ _ (all_olist tree_induction sub) (all_app _ _ (all_olist tree_induction sup) (all1 tree_induction arg))
  | TFuncs _ _ sup _ => all_olist tree_induction sup
  | TApply _ sup _ => all_olist tree_induction sup
  | TInt _ lims body => all_app _ _ (all_plims tree_induction lims) (all_olist tree_induction body)
  | TSqrt b r => Forall_cons b (tree_induction b) (all_olist tree_induction r)
  | TSum _ i s e b => Forall_cons i (tree_induction i) (Forall_cons s (tree_induction s) (all2 tree_induction e b))
  | TLim _ _ a b => all2 tree_induction a b
  | TExp sup => all_olist tree_induction sup
  end).
End Ind.

(** [s] is [t] or somewhere inside it *)
Inductive within (s : tree) : tree -> Prop :=
| within_here : within s s
| within_child t c : In c (children t) -> within s c -> within s t.
Fixpoint within_rel (s : tree) (r : rtree) : Prop :=
  match r with RExpr t => within s t | RRel _ a b | RIn a b => within_rel s a \/ within_rel s b end.
Definition within_math (s : tree) (m : mtree) : Prop :=
  match m with MRel r => within_rel s r | MList l => exists r, In r l /\ within_rel s r end.

Section Closed.
Context {V : Type}.
Variable O : LSympy V.
Notation G := (globals V).
Notation val := (lv V).
Variable P : forall A, M G A -> Prop.
Arguments P {A}.
Record closed := {
  cl_ret : forall A (a : A), P (ret a);
  cl_raise : forall A e, P (@raise G A e);
  cl_lift : forall A (r : res A), P (lift_res r);
  cl_bind : forall A B (m : M G A) (f : A -> M G B), P m -> (forall a, P (f a)) -> P (bind m f);
  cl_try : forall A (r : res A) x, P (try_bare (lift_res r) (ret x));
  cl_real : P (gets g_real);
  cl_values : P (gets g_values);
  cl_variances : P (gets g_variances);
  cl_check : P check_derivative;
  cl_flags : forall d p, P (set_flags (Some d) (Some p));
  cl_symbol : forall name, P (make_symbol O name)
}.
Hypothesis C : closed.
Variable l2s : pystr -> list (pystr * pv V) -> M G val.

Ltac cl := repeat match goal with
  | |- P _ => assumption
  | |- P (ret _) => apply (cl_ret C)
  | |- P (raise _) => apply (cl_raise C)
  | |- P (lift_res _) => apply (cl_lift C)
  | |- P (try_bare _ _) => apply (cl_try C)
  | |- P (gets g_real) => apply (cl_real C)
  | |- P (gets g_values) => apply (cl_values C)
  | |- P (gets g_variances) => apply (cl_variances C)
  | |- P check_derivative => apply (cl_check C)
  | |- P (set_flags _ _) => apply (cl_flags C)
  | |- P (make_symbol _ _) => apply (cl_symbol C)
  | |- P (bind _ _) => apply (cl_bind C); [|intro]
  | |- P (match ?x with _ => _ end) => destruct x
  end.

Lemma cl_is_matrix v : P (is_matrix O v).
Proof. unfold is_matrix. cl. Qed.
Lemma cl_some_matrix a b : P (some_matrix O a b).
Proof. unfold some_matrix. cl; apply cl_is_matrix. Qed.
Lemma cl_sympify v : P (sympify O v).
Proof. unfold sympify. cl. Qed.
Lemma cl_sympify_all l : P (sympify_all O l).
Proof. induction l; cbn [sympify_all]; cl. apply cl_sympify. Qed.
Lemma cl_doit v : P (doit O v).
Proof. unfold doit. cl. Qed.
Lemma cl_doit_all l : P (doit_all O l).
Proof. induction l; cbn [doit_all]; cl. apply cl_doit. Qed.
Lemma cl_build f l : P (build O f l).
Proof. unfold build. cl. apply cl_sympify_all. Qed.
Lemma cl_add_flat a b : P (add_flat O a b).
Proof. apply cl_build. Qed.
Lemma cl_mul_flat a b : P (mul_flat O a b).
Proof. apply cl_build. Qed.
Lemma cl_mat_add_flat a b : P (mat_add_flat O a b).
Proof. unfold mat_add_flat. cl; first [apply cl_doit_all | apply cl_build]. Qed.
Lemma cl_mat_mul_flat a b : P (mat_mul_flat O a b).
Proof. unfold mat_mul_flat, doit_maybe. cl; first [apply cl_doit_all | apply cl_build | apply cl_doit]. Qed.
Lemma cl_negate v : P (negate O v).
Proof. unfold negate. cl. apply cl_mul_flat. Qed.
Lemma cl_pow a b : P (pow O a b).
Proof. unfold pow. cl; apply cl_sympify. Qed.
Lemma cl_do_add a b : P (do_add O a b).
Proof. unfold do_add. cl; first [apply cl_some_matrix | apply cl_is_matrix | apply cl_doit_all | apply cl_sympify_all | apply cl_sympify | apply cl_doit | apply cl_mat_add_flat | apply cl_add_flat]. Qed.
Lemma cl_do_sub a b : P (do_sub O a b).
Proof. unfold do_sub. cl; first [apply cl_some_matrix | apply cl_is_matrix | apply cl_doit_all | apply cl_sympify_all | apply cl_sympify | apply cl_doit | apply cl_mat_mul_flat | apply cl_mat_add_flat | apply cl_negate | apply cl_add_flat]. Qed.
Lemma cl_do_mul a b : P (do_mul O a b).
Proof. unfold do_mul. cl; first [apply cl_some_matrix | apply cl_is_matrix | apply cl_doit_all | apply cl_sympify_all | apply cl_sympify | apply cl_doit | apply cl_mat_mul_flat | apply cl_mul_flat]. Qed.
Lemma cl_do_div a b : P (do_div O a b).
Proof. unfold do_div. cl; first [apply cl_some_matrix | apply cl_is_matrix | apply cl_doit_all | apply cl_sympify_all | apply cl_sympify | apply cl_doit | apply cl_sympify]. Qed.
Lemma cl_do_mod a b : P (do_mod O a b).
Proof. unfold do_mod, call. cl; apply cl_is_matrix. Qed.
Lemma cl_do_neg a : P (do_neg O a).
Proof. unfold do_neg. cl; first [apply cl_is_matrix | apply cl_negate]. Qed.
Lemma cl_const s : P (const O s).
Proof. unfold const. cl. Qed.
Lemma cl_differential_var s : P (differential_var (V := V) s).
Proof. unfold differential_var. destruct (skip_blanks _) as [s'|]; [|apply (cl_raise C)].
  destruct s' as [|c s']; cl. Qed.
Lemma cl_variable s : P (variable O s).
Proof.
  unfold variable. apply (cl_bind C); [apply (cl_values C)|intro]. apply (cl_bind C); [apply (cl_real C)|intro].
  apply (cl_bind C); [cl|intro]. destruct (ends_with _ s); cl.
Qed.
Lemma cl_apply_func n op b a : P (apply_func O n op b a).
Proof.
  unfold apply_func, call. repeat match goal with |- P (if ?x then _ else _) => destruct x end; cl.
Qed.
Lemma cl_func_power n f a p : P (func_power O n f a p).
Proof.
  unfold func_power, call. apply (cl_bind C); [destruct p; cl|intro]. apply (cl_bind C); [cl|intro f'].
  apply (cl_bind C); [destruct p; cl|intro t]. destruct f'; [|cl]. destruct p; [|cl].
  destruct (t && negb a0); [apply cl_pow|cl].
Qed.
Lemma cl_apply_funcs n op l : P (apply_funcs O n op l).
Proof. unfold apply_funcs, call. destruct (if str_eqb n (u "operatorname") then _ else _); cl. Qed.
Lemma cl_subst e a b : P (subst O e a b).
Proof. unfold subst. cl. Qed.
Lemma cl_map_l2s f l : (forall t, P (f t)) -> P (map_l2s f l).
Proof. intro F. induction l; cbn [map_l2s]; cl. apply F. Qed.

Section Conv.
Variable cv : tree -> M G val.
Let Q t := P (cv t).
Lemma cl_juxtapose l : Forall Q l -> P (juxtapose O cv l).
Proof.
  induction 1 as [|t l Ht Hl IH]; cbn [juxtapose]; [cl|].
  apply (cl_bind C); [exact Ht|]. intro r.
  destruct r as [v|v|rs|z|]; try (cl; fail).
  - destruct l; [cl|]. apply (cl_bind C); [exact IH|intro]. apply cl_do_mul.
  - apply (cl_bind C); [cl|intros _]. destruct rs as [|w rs]; [cl|].
    destruct l; [cl|]. apply (cl_bind C); [exact IH|intro]. apply (cl_bind C); [apply cl_sympify|intro]. cl.
Qed.
Lemma cl_map_conv l : Forall Q l -> P (map_conv cv l).
Proof. induction 1 as [|t l Ht Hl IH]; cbn [map_conv]; cl. Qed.
Lemma cl_map_rows l : Forall Q (List.concat l) -> P (map_rows cv l).
Proof.
  induction l as [|r l IH]; cbn [map_rows List.concat]; intro F; [cl|].
  apply Forall_app in F. destruct F as [F1 F2]. apply (cl_bind C); [apply cl_map_conv, F1|intro].
  apply (cl_bind C); [apply IH, F2|intro]. cl.
Qed.
Lemma cl_opt_conv o : Forall Q (olist o) -> P (opt_conv cv o).
Proof. destruct o; cbn; intro F; cl. inversion F; assumption. Qed.
Lemma cl_at_side e a b : Forall Q (a :: olist b) -> P (at_side O cv e (a, b)).
Proof.
  intro F. inversion F; subst. unfold at_side. cbn [fst snd]. apply (cl_bind C); [assumption|intro].
  apply (cl_bind C); [apply cl_opt_conv; assumption|intro]. apply cl_subst.
Qed.
Lemma cl_transforms l m : Forall Q (flat_map olist l) -> P (transforms cv l m).
Proof.
  revert m. induction l as [|t l IH]; intros m F; cbn [transforms]; [cl|].
  cbn [flat_map] in F. apply Forall_app in F. destruct F as [F1 F2].
  apply (cl_bind C); [|intro; apply IH, F2]. unfold transform. destruct t; [|cl].
  apply (cl_bind C); [inversion F1; assumption|]. intro. cl.
Qed.
End Conv.

Variable okd : dupper -> dlower -> Prop.
Hypothesis Hhere : forall t, P (l2s_here l2s t).
Hypothesis Hderiv : forall du dl, okd du dl -> P (derivative O l2s du dl).

Lemma conv_closed : forall t, (forall up lo du dl, within (TFrac up lo du dl) t -> okd du dl) -> P (conv O l2s t).
Proof.
  apply (tree_induction (fun t => (forall up lo du dl, within (TFrac up lo du dl) t -> okd du dl) -> P (conv O l2s t))).
  intros t IH W.
  assert (F : Forall (fun t => P (conv O l2s t)) (children t)).
  { apply Forall_forall. intros c Hc. rewrite Forall_forall in IH. apply IH; [exact Hc|].
    intros up lo du dl Hw. apply (W up lo). apply within_child with c; assumption. }
  destruct t; cbn [children] in F; cbn [conv].
  all: try (repeat match goal with H : Forall _ (_ :: _) |- _ => inversion H; clear H; subst end;
       cl; first [apply cl_do_add | apply cl_do_sub | apply cl_do_mul | apply cl_do_div | apply cl_do_mod | apply cl_do_neg | apply cl_pow
                 | apply cl_const | apply cl_variable ]; fail).
  - apply cl_juxtapose. exact F.
  - inversion F; subst. cl. unfold call. cl.
  - inversion F as [|? ? Fa Fs]; subst. apply Forall_app in Fs. destruct Fs as [F1 F2].
    apply (cl_bind C); [exact Fa|intro x].
    apply (cl_bind C).
    { destruct sup as [[p q]|]; cbn [opt_conv]; [|cl]. apply (cl_bind C); [|intro; cl]. apply cl_at_side. exact F1. }
    intro b. apply (cl_bind C).
    { destruct sub as [[p q]|]; cbn [opt_conv]; [|cl]. apply (cl_bind C); [|intro; cl]. apply cl_at_side. exact F2. }
    intro a. destruct b, a; try (cl; fail). apply (cl_bind C); [apply cl_mul_flat|intro; apply cl_add_flat].
  - inversion F; subst. cl. unfold call. cl.
  - inversion F; subst. cl. unfold call. cl.
  - inversion F; subst. cl. unfold call. cl.
  - inversion F; subst. cl. unfold call. cl.
  - inversion F as [|? ? ? F']; subst. inversion F'; subst. cl. unfold call. cl.
  - apply Forall_app in F. destruct F as [F1 F2]. apply (cl_bind C); [apply cl_map_rows, F1|intro].
    apply (cl_bind C); [cl|intro]. apply (cl_bind C); [apply cl_transforms, F2|intro; cl].
  - apply (cl_bind C); [apply cl_map_rows, F|intro]. cl.
  - destruct (is_imaginary n); [cl|]. apply (cl_bind C); [cl|intro]. destruct sup; [|cl].
    inversion F; subst. cl. apply cl_pow.
  - unfold number. cl.
  - unfold number. cl.
  - cl. apply cl_differential_var.
  - apply (cl_bind C); [apply Hderiv, (W t1 t2), within_here|]. intro d. destruct d; [cl|].
    inversion F as [|? ? ? F']; subst. inversion F'; subst. cl. apply cl_do_div.
  - apply Forall_app in F. destruct F as [F1 F2]. apply Forall_app in F2. destruct F2 as [F2 F3].
    apply (cl_bind C); [inversion F3; assumption|intro].
    apply (cl_bind C).
    { destruct (one_of _ _); [apply cl_opt_conv, F1|cl]. }
    intro. apply (cl_bind C); [apply cl_apply_func|intro].
    apply (cl_bind C); [apply cl_opt_conv, F2|intro]. apply cl_func_power.
  - destruct args; [|cl]. apply (cl_bind C); [apply cl_map_l2s, Hhere|intro].
    apply (cl_bind C); [apply cl_apply_funcs|intro].
    apply (cl_bind C); [apply cl_opt_conv, F|intro q]. destruct q; [|cl].
    apply (cl_bind C); [cl|intro b]. destruct b; [apply cl_pow|cl].
  - apply (cl_bind C); [apply cl_map_l2s, Hhere|intro].
    apply (cl_bind C); [apply cl_opt_conv, F|intro q]. apply (cl_bind C); [cl|intro]. destruct q; [apply cl_pow|cl].
  - apply Forall_app in F. destruct F as [F1 F2].
    apply (cl_bind C). { destruct body; [inversion F2; assumption|cl]. }
    intro i. apply (cl_bind C); [cl|intro real].
    apply (cl_bind C). { destruct d; [cl; apply cl_differential_var|]. cl. }
    intro iv. destruct lims as [[lo hi]|]; [|unfold call; cl].
    inversion F1 as [|? ? ? F']; subst. inversion F'; subst. cl. unfold call. cl.
  - inversion F as [|? ? Fb Fr]; subst. apply (cl_bind C); [exact Fb|intro]. destruct root; [|apply cl_pow].
    inversion Fr; subst. cl; [apply cl_sympify|apply cl_pow].
  - repeat match goal with H : Forall _ (_ :: _) |- _ => inversion H; clear H; subst end.
    cl; unfold call; cl.
  - repeat match goal with H : Forall _ (_ :: _) |- _ => inversion H; clear H; subst end.
    cl; unfold call; cl.
  - apply (cl_bind C); [apply cl_opt_conv, F|intro]. unfold call. cl.
Qed.

Hypothesis Hdeclare : forall k rh, P (declare O k rh).
Lemma conv_rel_closed r : (forall up lo du dl, within_rel (TFrac up lo du dl) r -> okd du dl) -> P (conv_rel O l2s r).
Proof.
  induction r as [t|op a IHa b IHb|a IHa b IHb]; cbn [conv_rel within_rel]; intro W.
  - apply conv_closed, W.
  - apply (cl_bind C); [apply IHa; intros; eapply W; left; eassumption|intro].
    apply (cl_bind C); [apply IHb; intros; eapply W; right; eassumption|intro]. cl.
  - apply (cl_bind C); [apply IHa; intros; eapply W; left; eassumption|intro x].
    apply (cl_bind C); [apply IHb; intros; eapply W; right; eassumption|intro y].
    destruct y; try (cl; fail). destruct (o_pow_exp_args _ O v) as [[|n [|m l]]|]; try (cl; fail).
    apply (cl_bind C); [cl|intro]. apply (cl_bind C); [cl|intro]. destruct x; cl. apply Hdeclare.
Qed.
Lemma map_conv_rel_closed l :
  (forall r, In r l -> forall up lo du dl, within_rel (TFrac up lo du dl) r -> okd du dl) -> P (map_conv (conv_rel O l2s) l).
Proof.
  induction l as [|r l IH]; intro W; cbn [map_conv]; [cl|].
  apply (cl_bind C); [apply conv_rel_closed; apply W; left; reflexivity|intro].
  apply (cl_bind C); [apply IH; intros; eapply W; [right|]; eassumption|intro]. cl.
Qed.
End Closed.
Arguments closed {V}. 

(** For every call, when nested calls and the bookkeeping of a call have the property too *)
Section ClosedAll.
Context {V : Type}.
Variable O : LSympy V.
Notation G := (globals V).
Notation val := (lv V).
Variable P : forall A, M G A -> Prop.
Arguments P {A}.
Hypothesis C : closed O (@P).
Hypothesis Hdeclare : forall k rh, P (declare O k rh).
Lemma derivative_closed l2s : (forall t vs, P (l2s t vs)) -> forall du dl, P (derivative O l2s du dl).
Proof.
  intros L du dl. unfold derivative. apply (cl_bind _ _ C); [apply (cl_flags _ _ C)|intros _].
  assert (Go : forall (wrt : pystr) (partial : bool), P (
    _ <- set_flags (V := V) (Some (negb partial)) (Some partial) ;;
    real <- gets g_real ;;
    let w := o_symbol V O wrt real in
    match du with
    | UOperator p => if Bool.eqb p partial then ret (Some (LL [LV w])) else ret None
    | UText starts_partial text =>
      top <- (if negb partial && starts_with (u "d") text then l2s (skipn 1 text) []
              else if partial && starts_partial then l2s (skipn (List.length (u "\partial")) text) []
              else ret LNone) ;;
      b <- (match top with LNone => ret false | _ => lift_res (o_truthy _ O top) end) ;;
      if b then v <- lift_res (o_Derivative _ O top w) ;; ret (Some (LV v)) else ret None
    end)).
  { intros wrt partial. apply (cl_bind _ _ C); [apply (cl_flags _ _ C)|intros _].
    apply (cl_bind _ _ C); [apply (cl_real _ _ C)|intro real]. cbv zeta. destruct du as [p|sp text].
    - destruct (Bool.eqb p partial); apply (cl_ret _ _ C).
    - apply (cl_bind _ _ C).
      { destruct (negb partial && _); [apply L|]. destruct (partial && sp); [apply L|apply (cl_ret _ _ C)]. }
      intro top. apply (cl_bind _ _ C); [destruct top; first [apply (cl_lift _ _ C) | apply (cl_ret _ _ C)]|intro b].
      destruct b; [|apply (cl_ret _ _ C)]. apply (cl_bind _ _ C); [apply (cl_lift _ _ C)|intro; apply (cl_ret _ _ C)]. }
  destruct dl as [|text|name].
  - apply (cl_ret _ _ C).
  - apply (cl_bind _ _ C); [apply (cl_differential_var O _ C)|intro wrt]. apply Go.
  - apply Go.
Qed.
Lemma here_closed (l2s : pystr -> list (pystr * pv V) -> M G val) : (forall t vs, P (l2s t vs)) -> forall t, P (l2s_here l2s t).
Proof. intros L t. unfold l2s_here. apply (cl_bind _ _ C); [apply (cl_values _ _ C)|intro]. apply L. Qed.

(** What one call does before converting, and the parse *)
Definition head (s : pystr) (vs : list (pystr * pv V)) : M G unit :=
  frac <- gets g_frac ;; _ <- set_frac (frac_of s frac) ;; set_values vs.
Definition rest (n : nat) (s : pystr) : M G val :=
  t <- lift_res (o_parse _ O (prepare s)) ;;
  match t with
  | MList l => rs <- map_conv (conv_rel O (latex2sympy O n)) l ;; ret (LL rs)
  | MRel r => conv_rel O (latex2sympy O n) r
  end.
Lemma latex2sympy_head n s vs st : latex2sympy O (S n) s vs st = bind (head s vs) (fun _ => rest n s) st.
Proof. reflexivity. Qed.
Hypothesis Hhead : forall s vs, P (head s vs).
Hypothesis Hext : forall A (m m' : M G A), (forall st, m st = m' st) -> P m -> P m'.
Lemma rest_closed n s : (forall t vs, P (latex2sympy O n t vs)) -> P (rest n s).
Proof.
  intro L. unfold rest. apply (cl_bind _ _ C); [apply (cl_lift _ _ C)|]. intro t.
  destruct t as [r|l].
  - apply (conv_rel_closed O _ C) with (okd := fun _ _ => True); try exact Hdeclare; auto.
    + apply here_closed, L.
    + intros; apply derivative_closed, L.
  - apply (cl_bind _ _ C); [|intro; apply (cl_ret _ _ C)].
    apply (map_conv_rel_closed O _ C) with (okd := fun _ _ => True); try exact Hdeclare; auto.
    + apply here_closed, L.
    + intros; apply derivative_closed, L.
Qed.
Lemma latex2sympy_closed n : forall s vs, P (latex2sympy O n s vs).
Proof.
  induction n as [|n IH]; intros s vs; [apply (cl_raise _ _ C)|].
  apply (Hext _ (bind (head s vs) (fun _ => rest n s))); [intro; symmetry; apply latex2sympy_head|].
  apply (cl_bind _ _ C); [apply Hhead|intros _]. apply rest_closed, IH.
Qed.
End ClosedAll.
