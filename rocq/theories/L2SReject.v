(** Texts the converter refuses whatever the state: a parse tree that always raises, anywhere it must be converted. *)
From Coq Require Import String List NArith ZArith Bool Lia.
From Verif Require Import PyStr Regex Normalize Monad L2S MonadTheory L2STheory L2SState.
Import ListNotations.
Local Open Scope mon_scope.

(** The subtrees converted whenever the tree is, i.e. except: factors after the first (a tuple before
    them ends the product), the parts of a derivative fraction, scripts of the letter I, subscripts of
    functions other than logarithms, and elementary transformations. *)
Definition strict_children (t : tree) : list tree :=
  match t with
  | TAdd a b | TSub a b | TTimes a b | TDivide a b | TMod a b | TBinom a b | TPow a b => [a; b]
  | TFracD a b | TFrac a b _ DNone => [a; b]
  | TFrac _ _ _ _ => []
  | TPlus a | TMinus a | TBang a | TTranspose a | TGroup a | TNorm a | TAbs a | TFloor a | TCeil a => [a]
  | TJuxt (a :: _) => [a]
  | TJuxt [] => []
  | TAt a sup sub => a :: pside sup ++ pside sub
  | TMatrix rows _ => List.concat rows
  | TDet rows => List.concat rows
  | TSymbol (NLetter s) _ sup => if str_eqb s (u "I") then [] else olist sup
  | TSymbol _ _ sup => olist sup
  | TConst _ | TNumber _ | TPercent _ | TDiff _ | TMathit _ | TVariable _ => []
  | TFunc name _ sub sup arg => (if str_eqb name (u "log") || str_eqb name (u "ln") then olist sub else []) ++ olist sup ++ [arg]
  | TFuncs _ _ sup _ => olist sup
  | TApply _ sup _ => olist sup
  | TInt _ lims body => plims lims ++ olist body
  | TSqrt b r => b :: olist r
  | TSum _ i s e b => [i; s; e; b]
  | TLim _ _ a b => [a; b]
  | TExp sup => olist sup
  end.
Inductive strictly (s : tree) : tree -> Prop :=
| strictly_here : strictly s s
| strictly_child t c : In c (strict_children t) -> strictly s c -> strictly s t.
Fixpoint strictly_rel (s : tree) (r : rtree) : Prop :=
  match r with RExpr t => strictly s t | RRel _ a b | RIn a b => strictly_rel s a \/ strictly_rel s b end.
Definition strictly_math (s : tree) (m : mtree) : Prop :=
  match m with MRel r => strictly_rel s r | MList l => exists r, In r l /\ strictly_rel s r end.

Section Reject.
Context {V : Type}.
Variable O : LSympy V.
Notation G := (globals V).
Notation val := (lv V).
(** An invariant of the state *)
Variable I : G -> Prop.
Definition kept A (m : M G A) : Prop := forall st, I st -> I (snd (m st)).
Definition fails {A} (m : M G A) : Prop := forall st, I st -> exists e st', m st = (Raise e, st').
Hypothesis C : closed O kept.

Lemma fails_l A B (m : M G A) (f : A -> M G B) : fails m -> fails (bind m f).
Proof. intros H st Hi. destruct (H st Hi) as (e & st' & E). exists e, st'. unfold bind. rewrite E. reflexivity. Qed.
Lemma fails_r A B (m : M G A) (f : A -> M G B) : kept A m -> (forall a, fails (f a)) -> fails (bind m f).
Proof.
  intros K H st Hi. specialize (K st Hi). unfold bind. destruct (m st) as [[a|e] s]; [apply H, K|eauto].
Qed.
Lemma fails_raise A e : fails (@raise G A e).
Proof. intros st _. exists e, st. reflexivity. Qed.

Section Conv.
Variable cv : tree -> M G val.
Let K t := kept _ (cv t).
Lemma fails_map_conv l c : In c l -> fails (cv c) -> Forall K l -> fails (map_conv cv l).
Proof.
  intros Hc Fc. induction 1 as [|t l Kt Kl IH]; cbn [map_conv]; [destruct Hc|].
  destruct Hc as [->|Hc]; [apply fails_l, Fc|]. apply fails_r; [exact Kt|intro]. apply fails_l, IH, Hc.
Qed.
Lemma fails_map_rows l c : In c (List.concat l) -> fails (cv c) -> Forall K (List.concat l) -> fails (map_rows cv l).
Proof.
  intros Hc Fc. induction l as [|r l IH]; cbn [map_rows List.concat] in *; [destruct Hc|].
  intro Kl. apply Forall_app in Kl. destruct Kl as [K1 K2]. apply in_app_or in Hc. destruct Hc as [Hc|Hc].
  - apply fails_l, fails_map_conv with c; assumption.
  - apply fails_r; [apply (cl_map_conv O _ C cv), K1|intro]. apply fails_l, IH; assumption.
Qed.
Lemma fails_opt_conv o c : In c (olist o) -> fails (cv c) -> fails (opt_conv cv o).
Proof. destruct o; cbn; [|tauto]. intros [->|[]] F. apply fails_l, F. Qed.
Lemma fails_at_side e a b c : In c (a :: olist b) -> fails (cv c) -> K a -> fails (at_side O cv e (a, b)).
Proof.
  intros Hc F Ka. unfold at_side. cbn [fst snd]. destruct Hc as [->|Hc]; [apply fails_l, F|].
  apply fails_r; [exact Ka|intro]. apply fails_l, fails_opt_conv with c; assumption.
Qed.
Lemma fails_side e o c : In c (pside o) -> fails (cv c) -> Forall K (pside o) -> fails (opt_conv (at_side O cv e) o).
Proof.
  destruct o as [[a b]|]; cbn [pside opt_conv]; [|intros []]. intros Hc F Ks. inversion Ks; subst.
  apply fails_l, fails_at_side with c; assumption.
Qed.
Lemma kept_side e o : Forall K (pside o) -> kept _ (opt_conv (at_side O cv e) o).
Proof.
  destruct o as [[a b]|]; cbn [pside opt_conv]; intro Ks; [|apply (cl_ret _ _ C)].
  apply (cl_bind _ _ C); [apply (cl_at_side O _ C), Ks|intro; apply (cl_ret _ _ C)].
Qed.
End Conv.

Variable l2s : pystr -> list (pystr * pv V) -> M G val.
Hypothesis Hhere : forall t, kept _ (l2s_here l2s t).
Lemma strict_imaginary n sub sup c : In c (strict_children (TSymbol n sub sup)) -> is_imaginary n = false /\ In c (olist sup).
Proof.
  destruct n as [s|s|s|a b]; cbn [strict_children is_imaginary]; auto.
  destruct (str_eqb s (u "I")); [intros []|auto].
Qed.
Lemma strict_step t c : Forall (fun t => kept _ (conv O l2s t)) (children t) ->
  In c (strict_children t) -> fails (conv O l2s c) -> fails (conv O l2s t).
Proof.
  intros Ks Hc F.
  destruct t; cbn [strict_children] in Hc; cbn [children] in Ks; cbn [conv];
  try (destruct Hc; fail);
  try (destruct Hc as [<-|[]]; try (apply fails_l, F); exact F);
  try (inversion Ks as [|? ? Ka Ks']; subst; destruct Hc as [<-|[<-|[]]]; [apply fails_l, F|apply fails_r; [exact Ka|intro]; apply fails_l, F]).
  - destruct l as [|a l]; [destruct Hc|]. destruct Hc as [<-|[]]. cbn [juxtapose]. apply fails_l, F.
  - inversion Ks as [|? ? Ka Ks']; subst. apply Forall_app in Ks'. destruct Ks' as [K1 K2].
    destruct Hc as [<-|Hc]; [apply fails_l, F|]. apply fails_r; [exact Ka|intro x].
    apply in_app_or in Hc. destruct Hc as [Hc|Hc].
    + apply fails_l, fails_side with c; assumption.
    + apply fails_r; [apply kept_side, K1|intro b]. apply fails_l, fails_side with c; assumption.
  - inversion Ks as [|? ? Ka Ks']; subst; destruct Hc as [<-|[<-|[]]]; [apply fails_l, F|apply fails_r; [exact Ka|intro x]].
    destruct (is_list x); [apply fails_raise|apply fails_l, F].
  - apply Forall_app in Ks. destruct Ks as [Ks _]. apply fails_l, fails_map_rows with c; assumption.
  - apply fails_l, fails_map_rows with c; assumption.
  - apply (strict_imaginary n sub) in Hc. destruct Hc as [-> Hc]. destruct sup as [e|]; [|destruct Hc]. destruct Hc as [<-|[]].
    apply fails_r; [apply (cl_symbol _ _ C)|intro]. apply fails_l, F.
  - destruct dl; try (destruct Hc; fail). intros st Hi.
    change (exists e st', bind (set_flags (Some false) (Some false)) (fun _ => x <- conv O l2s t1 ;; y <- conv O l2s t2 ;; do_div O x y) st = (Raise e, st')).
    revert st Hi. change (fails (bind (set_flags (Some false) (Some false)) (fun _ => x <- conv O l2s t1 ;; y <- conv O l2s t2 ;; do_div O x y))).
    apply fails_r; [apply (cl_flags _ _ C)|intros _].
    inversion Ks as [|? ? Ka Ks']; subst; destruct Hc as [<-|[<-|[]]]; [apply fails_l, F|apply fails_r; [exact Ka|intro]; apply fails_l, F].
  - apply fails_r; [apply (cl_flags _ _ C)|intros _].
    inversion Ks as [|? ? Ka Ks']; subst; destruct Hc as [<-|[<-|[]]]; [apply fails_l, F|apply fails_r; [exact Ka|intro]; apply fails_l, F].
  - apply Forall_app in Ks. destruct Ks as [K1 Ks]. apply Forall_app in Ks. destruct Ks as [K2 K3]. inversion K3 as [|? ? K4 _]; subst.
    assert (E : one_of name (map u ["log"; "ln"]%string) = str_eqb name (u "log") || str_eqb name (u "ln")).
    { unfold one_of. cbn [map existsb]. rewrite orb_false_r. reflexivity. }
    rewrite E. set (lg := _ || _) in *. clearbody lg.
    apply in_app_or in Hc. destruct Hc as [Hc|Hc]; [|apply in_app_or in Hc; destruct Hc as [Hc|[<-|[]]]].
    + destruct lg; [|destruct Hc]. apply fails_r; [exact K4|intro]. apply fails_l, fails_opt_conv with c; assumption.
    + apply fails_r; [exact K4|intro]. apply fails_r; [destruct lg; [apply (cl_opt_conv O _ C), K1|apply (cl_ret _ _ C)]|intro].
      apply fails_r; [apply (cl_apply_func O _ C)|intro]. apply fails_l, fails_opt_conv with c; assumption.
    + apply fails_l, F.
  - destruct args; [|apply fails_raise]. apply fails_r; [apply (cl_map_l2s O _ C), Hhere|intro].
    apply fails_r; [apply (cl_apply_funcs O _ C)|intro]. apply fails_l, fails_opt_conv with c; assumption.
  - apply fails_r; [apply (cl_map_l2s O _ C), Hhere|intro]. apply fails_l, fails_opt_conv with c; assumption.
  - apply Forall_app in Ks. destruct Ks as [K1 K2]. apply in_app_or in Hc. destruct Hc as [Hc|Hc].
    + apply fails_r; [destruct body; [inversion K2; assumption|apply (cl_ret _ _ C)]|intro i].
      apply fails_r; [apply (cl_real _ _ C)|intro real].
      apply fails_r.
      { destruct d.
        - apply (cl_bind _ _ C); [apply (cl_differential_var O _ C)|intro; apply (cl_ret _ _ C)].
        - apply (cl_bind _ _ C); [apply (cl_lift _ _ C)|]. intros [[v s]|]; [|apply (cl_ret _ _ C)].
          apply (cl_bind _ _ C); [apply (cl_lift _ _ C)|intro; apply (cl_ret _ _ C)]. }
      intro iv. destruct lims as [[lo hi]|]; [|destruct Hc]. cbn [plims] in *.
      inversion K1 as [|? ? Ka Ks']; subst; destruct Hc as [<-|[<-|[]]]; [apply fails_l, F|apply fails_r; [exact Ka|intro]; apply fails_l, F].
    + destruct body; [|destruct Hc]. destruct Hc as [<-|[]]. apply fails_l, F.
  - destruct Hc as [<-|Hc]; [apply fails_l, F|]. inversion Ks; subst. apply fails_r; [assumption|intro].
    destruct root; [|destruct Hc]. destruct Hc as [<-|[]]. apply fails_l, F.
  - repeat match goal with H : Forall _ (_ :: _) |- _ => inversion H; clear H; subst end.
    destruct Hc as [<-|[<-|[<-|[<-|[]]]]].
    all: repeat (first [apply fails_l, F | apply fails_r; [assumption|intro]]).
  - repeat match goal with H : Forall _ (_ :: _) |- _ => inversion H; clear H; subst end.
    apply fails_r; [apply (cl_real _ _ C)|intro real].
    destruct Hc as [<-|[<-|[]]].
    all: repeat (first [apply fails_l, F | apply fails_r; [assumption|intro]]).
  - apply fails_l, fails_opt_conv with c; assumption.
Qed.

Lemma strict_within t c : In c (strict_children t) -> In c (children t).
Proof.
  destruct t; cbn [strict_children children]; auto.
  - destruct l; cbn; tauto.
  - intro H. apply in_or_app. left; exact H.
  - destruct n; auto. destruct (str_eqb _ _); [intros []|auto].
  - destruct dl; auto; intros [].
  - intro H. apply in_or_app. apply in_app_or in H. destruct H as [H|H]; [left|right; exact H].
    destruct (_ || _); [exact H|destruct H].
Qed.
Variable okd : dupper -> dlower -> Prop.
Hypothesis Hderiv : forall du dl, okd du dl -> kept _ (derivative O l2s du dl).
Definition allowed (t : tree) : Prop := forall up lo du dl, within (TFrac up lo du dl) t -> okd du dl.
Lemma allowed_child t c : allowed t -> In c (children t) -> allowed c.
Proof. intros A Hc up lo du dl W. apply (A up lo), within_child with c; assumption. Qed.
Lemma allowed_kept t : allowed t -> kept _ (conv O l2s t).
Proof. apply (conv_closed O kept C l2s okd Hhere Hderiv). Qed.
Theorem fails_strictly s t : strictly s t -> allowed t -> fails (conv O l2s s) -> fails (conv O l2s t).
Proof.
  induction 1 as [|t c Hc Hs IH]; intros A F; [exact F|].
  apply strict_step with c; [|exact Hc|].
  - apply Forall_forall. intros x Hx. apply allowed_kept, (allowed_child t); assumption.
  - apply IH; [|exact F]. apply (allowed_child t); [exact A|apply strict_within, Hc].
Qed.
Hypothesis Hdeclare : forall k rh, kept _ (declare O k rh).
Theorem fails_strictly_rel s r : strictly_rel s r -> (forall up lo du dl, within_rel (TFrac up lo du dl) r -> okd du dl) ->
  fails (conv O l2s s) -> fails (conv_rel O l2s r).
Proof.
  intros Hs A F. induction r as [t|op a IHa b IHb|a IHa b IHb]; cbn [conv_rel strictly_rel within_rel] in *.
  - apply (fails_strictly s t Hs A F).
  - assert (A1 : forall up lo du dl, within_rel (TFrac up lo du dl) a -> okd du dl) by (intros; eapply A; left; eassumption).
    assert (A2 : forall up lo du dl, within_rel (TFrac up lo du dl) b -> okd du dl) by (intros; eapply A; right; eassumption).
    destruct Hs as [Hs|Hs]; [apply fails_l; auto|].
    apply fails_r; [apply (conv_rel_closed O kept C l2s okd Hhere Hderiv Hdeclare), A1|intro]. apply fails_l; auto.
  - assert (A1 : forall up lo du dl, within_rel (TFrac up lo du dl) a -> okd du dl) by (intros; eapply A; left; eassumption).
    assert (A2 : forall up lo du dl, within_rel (TFrac up lo du dl) b -> okd du dl) by (intros; eapply A; right; eassumption).
    destruct Hs as [Hs|Hs]; [apply fails_l; auto|].
    apply fails_r; [apply (conv_rel_closed O kept C l2s okd Hhere Hderiv Hdeclare), A1|intro]. apply fails_l; auto.
Qed.
Theorem fails_strictly_list s l : (exists r, In r l /\ strictly_rel s r) ->
  (forall r, In r l -> forall up lo du dl, within_rel (TFrac up lo du dl) r -> okd du dl) ->
  fails (conv O l2s s) -> fails (map_conv (conv_rel O l2s) l).
Proof.
  intros (r & Hr & Hs) A F. induction l as [|r' l IH]; [destruct Hr|]. cbn [map_conv]. destruct Hr as [->|Hr].
  - apply fails_l, fails_strictly_rel with s; auto. apply A. left; reflexivity.
  - apply fails_r; [apply (conv_rel_closed O kept C l2s okd Hhere Hderiv Hdeclare), A; left; reflexivity|intro].
    apply fails_l, IH; [exact Hr|]. intros r'' H''. apply A. right; exact H''.
Qed.
End Reject.

Section Calls.
Context {V : Type}.
Variable O : LSympy V.
Notation G := (globals V).
Notation val := (lv V).
Definition anything (st : G) : Prop := True.
Lemma anything_closed : closed O (kept anything).
Proof. split; repeat intro; exact Logic.I. Qed.
(** Never returns, whatever the state *)
Definition never {A} (m : M G A) : Prop := fails anything m.
Lemma anything_kept A (m : M G A) : kept anything A m.
Proof. intros st _. exact Logic.I. Qed.
Theorem rejected_anywhere s t m : o_parse _ O (prepare s) = Ret m -> strictly_math t m ->
  (forall n, never (conv O (latex2sympy O n) t)) -> forall n vs, never (latex2sympy O n s vs).
Proof.
  intros Hp Hs F n vs st _. destruct n as [|n]; [eexists _, _; reflexivity|]. rewrite latex2sympy_head.
  enough (H : never (bind (head s vs) (fun _ => rest O n s))) by (apply H; exact Logic.I).
  apply fails_r; [apply anything_kept|]. intros _. unfold rest. rewrite Hp.
  change (never (match m with
    | MRel r => conv_rel O (latex2sympy O n) r
    | MList l => rs <- map_conv (conv_rel O (latex2sympy O n)) l ;; ret (LL rs)
    end)).
  destruct m as [r|l].
  - apply (fails_strictly_rel O anything anything_closed (latex2sympy O n) (fun _ => anything_kept _ _) (fun _ _ => True)
      (fun _ _ _ => anything_kept _ _) (fun _ _ => anything_kept _ _) t r Hs); auto. apply F.
  - apply fails_l, (fails_strictly_list O anything anything_closed (latex2sympy O n) (fun _ => anything_kept _ _) (fun _ _ => True)
      (fun _ _ _ => anything_kept _ _) (fun _ _ => anything_kept _ _) t l Hs); auto. apply F.
Qed.

(** * Matrices *)
(** What is needed of SymPy: unevaluated sums and products containing a matrix are matrices (of class MatAdd and MatMul), so are
    literal matrices and transposes; doit keeps being a matrix; the terms of a MatAdd include a matrix, and so do the factors of a MatMul. *)
Record matrices : Prop := {
  mx_matrix : forall rows m, o_matrix _ O rows = Ret m -> o_is_Matrix _ O m = true;
  mx_MatAdd : forall l m, existsb (o_is_Matrix _ O) l = true -> o_MatAdd _ O l = Ret m -> o_is_Matrix _ O m = true;
  mx_MatMul : forall l m, existsb (o_is_Matrix _ O) l = true -> o_MatMul _ O l = Ret m -> o_is_Matrix _ O m = true /\ o_is_MatMul _ O m = true;
  mx_transpose : forall v w, o_is_Matrix _ O v = true -> o_transpose _ O (LV v) = Ret w -> exists x, w = LV x /\ o_is_Matrix _ O x = true;
  mx_doit : forall v w, o_is_Matrix _ O v = true -> o_doit _ O v = Ret w -> o_is_Matrix _ O w = true;
  mx_args_add : forall v, o_is_Matrix _ O v = true -> o_is_MatAdd _ O v = true -> existsb (o_is_Matrix _ O) (o_args _ O v) = true;
  mx_args_mul : forall v, o_is_Matrix _ O v = true -> o_is_MatMul _ O v = true -> existsb (o_is_Matrix _ O) (o_args _ O v) = true
}.
(** Trees whose value, if there is one, is a matrix; [true]: a product *)
Inductive MatTree : bool -> tree -> Prop :=
| M_matrix rows ts : MatTree false (TMatrix rows ts)
| M_any t : MatTree true t -> MatTree false t
| M_group b t : MatTree b t -> MatTree b (TGroup t)
| M_plus b t : MatTree b t -> MatTree b (TPlus t)
| M_add_l s t : MatTree false s -> MatTree false (TAdd s t)
| M_add_r s t : MatTree false t -> MatTree false (TAdd s t)
| M_sub_l s t : MatTree false s -> MatTree false (TSub s t)
| M_sub_r s t : MatTree false t -> MatTree false (TSub s t)
| M_times_l s t : MatTree false s -> MatTree true (TTimes s t)
| M_times_r s t : MatTree false t -> MatTree true (TTimes s t)
| M_juxt s t l : MatTree false s -> MatTree true (TJuxt (s :: t :: l))
| M_juxt_one b s : MatTree b s -> MatTree b (TJuxt [s])
| M_over s t : MatTree false s -> MatTree true (TDivide s t)
| M_frac s t d : MatTree false s -> MatTree true (TFrac s t d DNone)
| M_transpose t : MatTree false t -> MatTree false (TTranspose t).
Section Mx.
Hypothesis Mx : matrices.
Variable l2s : pystr -> list (pystr * pv V) -> M G val.
Definition is_mx (b : bool) (v : val) : Prop :=
  exists m, v = LV m /\ o_is_Matrix _ O m = true /\ (b = true -> o_is_MatMul _ O m = true).
Definition one_mx (l : list val) : Prop := exists m, In (LV m) l /\ o_is_Matrix _ O m = true.
Lemma some_mx l : existsb (o_is_Matrix _ O) l = true -> one_mx (map LV l).
Proof. intro H. apply existsb_exists in H. destruct H as (m & Hm & E). exists m. split; [apply in_map, Hm|exact E]. Qed.
Lemma sympify_all_mx l st xs st' : one_mx l -> sympify_all O l st = (Ret xs, st') -> existsb (o_is_Matrix _ O) xs = true.
Proof.
  intros (m & Hm & E). revert st xs st'. induction l as [|a l IH]; intros st xs st' H; [destruct Hm|]. cbn [sympify_all] in H.
  apply bind_inv in H. destruct H as (x & s1 & Hx & H). apply bind_inv in H. destruct H as (ys & s2 & Hys & H).
  inversion H; subst. cbn [existsb]. destruct Hm as [->|Hm].
  - inversion Hx; subst. rewrite E. reflexivity.
  - rewrite (IH Hm _ _ _ Hys). apply orb_true_r.
Qed.
Lemma doit_mx m st w st' : o_is_Matrix _ O m = true -> doit O (LV m) st = (Ret w, st') -> exists x, w = LV x /\ o_is_Matrix _ O x = true.
Proof.
  intros E H. cbn [doit] in H. apply bind_inv in H. destruct H as (x & s1 & Hx & H). inversion H; subst.
  unfold lift_res in Hx. inversion Hx as [[Hx' Es]]. exists x. split; [reflexivity|]. apply (mx_doit Mx m x E Hx').
Qed.
Lemma doit_all_mx l st xs st' : one_mx l -> doit_all O l st = (Ret xs, st') -> one_mx xs.
Proof.
  intros (m & Hm & E). revert st xs st'. induction l as [|a l IH]; intros st xs st' H; [destruct Hm|]. cbn [doit_all] in H.
  apply bind_inv in H. destruct H as (x & s1 & Hx & H). apply bind_inv in H. destruct H as (ys & s2 & Hys & H).
  inversion H; subst. destruct Hm as [->|Hm].
  - destruct (doit_mx m _ _ _ E Hx) as (y & -> & Ey). exists y. split; [left; reflexivity|exact Ey].
  - destruct (IH Hm _ _ _ Hys) as (y & Hy & Ey). exists y. split; [right; exact Hy|exact Ey].
Qed.
Lemma build_mul_mx l st v st' : one_mx l -> build O (o_MatMul _ O) l st = (Ret v, st') -> is_mx true v.
Proof.
  intros Hl H. unfold build in H. apply bind_inv in H. destruct H as (xs & s1 & Hx & H). apply bind_inv in H. destruct H as (m & s2 & Hm & H).
  inversion H; subst. unfold lift_res in Hm. inversion Hm as [[Hm' Es]].
  destruct (mx_MatMul Mx xs m (sympify_all_mx _ _ _ _ Hl Hx) Hm'). exists m. auto.
Qed.
Lemma build_add_mx l st v st' : one_mx l -> build O (o_MatAdd _ O) l st = (Ret v, st') -> is_mx false v.
Proof.
  intros Hl H. unfold build in H. apply bind_inv in H. destruct H as (xs & s1 & Hx & H). apply bind_inv in H. destruct H as (m & s2 & Hm & H).
  inversion H; subst. unfold lift_res in Hm. inversion Hm as [[Hm' Es]].
  exists m. split; [reflexivity|]. split; [apply (mx_MatAdd Mx xs m (sympify_all_mx _ _ _ _ Hl Hx) Hm')|discriminate].
Qed.
Lemma flat_mx p v : is_mx false v -> (forall m, o_is_Matrix _ O m = true -> p m = true -> existsb (o_is_Matrix _ O) (o_args _ O m) = true) ->
  one_mx (flat O p v).
Proof.
  intros (m & -> & E & _) Hp. cbn [flat]. destruct (p m) eqn:Ep; [apply some_mx, Hp; assumption|].
  exists m. split; [left; reflexivity|exact E].
Qed.
Lemma one_mx_app l1 l2 : one_mx l1 \/ one_mx l2 -> one_mx (l1 ++ l2).
Proof. intros [(m & H & E)|(m & H & E)]; exists m; split; auto; apply in_or_app; auto. Qed.
Lemma mat_add_mx a b st v st' : is_mx false a \/ is_mx false b -> mat_add_flat O a b st = (Ret v, st') -> is_mx false v.
Proof.
  intros Hab H. unfold mat_add_flat in H. apply bind_inv in H. destruct H as (xs & s1 & Hx & H).
  apply (build_add_mx xs _ _ _) in H; [exact H|]. apply (doit_all_mx _ _ _ _) in Hx; [exact Hx|]. apply one_mx_app.
  destruct Hab as [Ha|Hb]; [left|right]; (apply flat_mx; [assumption|apply (mx_args_add Mx)]).
Qed.
Lemma mat_mul_mx a b st v st' : is_mx false a \/ is_mx false b -> mat_mul_flat O a b st = (Ret v, st') -> is_mx true v.
Proof.
  intros Hab H. unfold mat_mul_flat in H. destruct (_ || _).
  - apply bind_inv in H. destruct H as (xs & s1 & Hx & H).
    apply (build_mul_mx xs _ _ _) in H; [exact H|]. apply (doit_all_mx _ _ _ _) in Hx; [exact Hx|]. apply one_mx_app.
    destruct Hab as [Ha|Hb]; [left|right]; (apply flat_mx; [assumption|apply (mx_args_mul Mx)]).
  - apply bind_inv in H. destruct H as (x & s1 & Hx & H). apply bind_inv in H. destruct H as (y & s2 & Hy & H).
    apply (build_mul_mx _ _ _ _) in H; [exact H|].
    destruct Hab as [(m & -> & E & _)|(m & -> & E & _)].
    + destruct (doit_mx m _ _ _ E Hx) as (z & -> & Ez). exists z. split; [left; reflexivity|exact Ez].
    + destruct (doit_mx m _ _ _ E Hy) as (z & -> & Ez). exists z. split; [right; left; reflexivity|exact Ez].
Qed.
Lemma some_matrix_mx a b st r st' : is_mx false a \/ is_mx false b -> some_matrix O a b st = (Ret r, st') -> r = true /\ st' = st.
Proof.
  intros Hab H. unfold some_matrix in H. apply bind_inv in H. destruct H as (m & s1 & Hm & H).
  destruct a as [x|x|x|x|]; cbn [is_matrix] in Hm; try discriminate. inversion Hm; subst.
  destruct (o_is_Matrix V O x) eqn:Ex; [inversion H; auto|].
  destruct Hab as [(m & Ea & E & _)|(m & -> & E & _)]; [congruence|]. cbn [is_matrix] in H. rewrite E in H. inversion H; auto.
Qed.
Lemma do_add_mx a b st v st' : is_mx false a \/ is_mx false b -> do_add O a b st = (Ret v, st') -> is_mx false v.
Proof.
  intros Hab H. unfold do_add in H. apply bind_inv in H. destruct H as (m & s1 & Hm & H).
  destruct (some_matrix_mx _ _ _ _ _ Hab Hm) as [-> ->]. apply (mat_add_mx _ _ _ _ _ Hab H).
Qed.
Lemma do_mul_mx a b st v st' : is_mx false a \/ is_mx false b -> do_mul O a b st = (Ret v, st') -> is_mx true v.
Proof.
  intros Hab H. unfold do_mul in H. apply bind_inv in H. destruct H as (m & s1 & Hm & H).
  destruct (some_matrix_mx _ _ _ _ _ Hab Hm) as [-> ->]. apply (mat_mul_mx _ _ _ _ _ Hab H).
Qed.
Lemma is_mx_false b v : is_mx b v -> is_mx false v.
Proof. intros (m & H1 & H2 & _). exists m. split; [exact H1|]. split; [exact H2|discriminate]. Qed.
Lemma do_sub_mx a b st v st' : is_mx false a \/ is_mx false b -> do_sub O a b st = (Ret v, st') -> is_mx false v.
Proof.
  intros Hab H. unfold do_sub in H. apply bind_inv in H. destruct H as (m & s1 & Hm & H).
  destruct (some_matrix_mx _ _ _ _ _ Hab Hm) as [-> ->]. apply bind_inv in H. destruct H as (n & s2 & Hn & H).
  apply (mat_add_mx _ _ _ _ _) in H; [exact H|]. destruct Hab as [Ha|Hb]; [left; exact Ha|right].
  apply is_mx_false with true. apply (mat_mul_mx _ _ _ _ _ (or_intror Hb) Hn).
Qed.
Lemma do_div_mx a b st v st' : is_mx false a -> do_div O a b st = (Ret v, st') -> is_mx true v.
Proof.
  intros Ha H. unfold do_div in H. apply bind_inv in H. destruct H as (m & s1 & Hm & H).
  destruct (some_matrix_mx _ _ _ _ _ (or_introl Ha) Hm) as [-> ->].
  apply bind_inv in H. destruct H as (x & s2 & Hx & H). apply bind_inv in H. destruct H as (i & s3 & Hi & H).
  apply bind_inv in H. destruct H as (y & s4 & Hy & H). apply bind_inv in H. destruct H as (w & s5 & Hw & H).
  inversion H; subst. unfold lift_res in Hw. inversion Hw as [[Hw' Es]]. destruct Ha as (z & -> & Ez & _). inversion Hy; subst.
  destruct (mx_MatMul Mx [y; i] w) as [E1 E2]; [cbn [existsb]; rewrite Ez; reflexivity|exact Hw'|]. exists w. auto.
Qed.
Theorem matrix_value b t : MatTree b t -> forall st v st', conv O l2s t st = (Ret v, st') -> is_mx b v.
Proof.
  induction 1 as [rows ts|t Ht IH|b t Ht IH|b t Ht IH|s t Ht IH|s t Ht IH|s t Ht IH|s t Ht IH|s t Ht IH|s t Ht IH|s t l Ht IH|b s Ht IH|s t Ht IH|s t d Ht IH|t Ht IH];
    intros st v st' H; cbn [conv] in H.
  - apply bind_inv in H. destruct H as (rs & s1 & Hr & H). apply bind_inv in H. destruct H as (m & s2 & Hm & H).
    apply bind_inv in H. destruct H as (m' & s3 & Ht & H). inversion H; subst.
    unfold lift_res in Hm. inversion Hm as [[Hm' Es]].
    destruct ts as [|t ts].
    + inversion Ht; subst. exists m'. split; [reflexivity|]. split; [apply (mx_matrix Mx rs), Hm'|discriminate].
    + cbn [transforms] in Ht. apply bind_inv in Ht. destruct Ht as (m2 & s5 & Ht & _). unfold transform in Ht.
      destruct t; [apply bind_inv in Ht; destruct Ht as (? & ? & _ & Ht)|]; discriminate.
  - apply is_mx_false with true. eapply IH; eassumption.
  - eapply IH; eassumption.
  - eapply IH; eassumption.
  - apply bind_inv in H. destruct H as (x & s1 & Hx & H). apply bind_inv in H. destruct H as (y & s2 & Hy & H).
    eapply do_add_mx; [left; eapply IH; eassumption|exact H].
  - apply bind_inv in H. destruct H as (x & s1 & Hx & H). apply bind_inv in H. destruct H as (y & s2 & Hy & H).
    eapply do_add_mx; [right; eapply IH; eassumption|exact H].
  - apply bind_inv in H. destruct H as (x & s1 & Hx & H). apply bind_inv in H. destruct H as (y & s2 & Hy & H).
    eapply do_sub_mx; [left; eapply IH; eassumption|exact H].
  - apply bind_inv in H. destruct H as (x & s1 & Hx & H). apply bind_inv in H. destruct H as (y & s2 & Hy & H).
    eapply do_sub_mx; [right; eapply IH; eassumption|exact H].
  - apply bind_inv in H. destruct H as (x & s1 & Hx & H). apply bind_inv in H. destruct H as (y & s2 & Hy & H).
    eapply do_mul_mx; [left; eapply IH; eassumption|exact H].
  - apply bind_inv in H. destruct H as (x & s1 & Hx & H). apply bind_inv in H. destruct H as (y & s2 & Hy & H).
    eapply do_mul_mx; [right; eapply IH; eassumption|exact H].
  - change (bind (conv O l2s s) (fun r => match r with
      | LV _ => rh <- juxtapose O (conv O l2s) (t :: l) ;; do_mul O r rh
      | LTD _ => ret r
      | _ => _ <- check_derivative ;; match r with
        | LL (wrt :: _) => e <- juxtapose O (conv O l2s) (t :: l) ;; w <- sympify O wrt ;; v <- lift_res (o_Derivative _ O e w) ;; ret (LV v)
        | LL [] => raise IndexError | _ => raise TypeError end end) st = (Ret v, st')) in H.
    apply bind_inv in H. destruct H as (x & s1 & Hx & H). pose proof (IH _ _ _ Hx) as Mxx. destruct Mxx as (m & -> & Em).
    apply bind_inv in H. destruct H as (y & s2 & Hy & H).
    eapply do_mul_mx; [left; exists m; split; [reflexivity|exact Em]|exact H].
  - cbn [juxtapose] in H. apply bind_inv in H. destruct H as (x & s1 & Hx & H). pose proof (IH _ _ _ Hx) as Mxx.
    destruct Mxx as (m & -> & Em). inversion H; subst. exists m. auto.
  - apply bind_inv in H. destruct H as (x & s1 & Hx & H). apply bind_inv in H. destruct H as (y & s2 & Hy & H).
    eapply do_div_mx; [eapply IH; eassumption|exact H].
  - change (bind (set_flags (Some false) (Some false)) (fun _ => x <- conv O l2s s ;; y <- conv O l2s t ;; do_div O x y) st = (Ret v, st')) in H.
    apply bind_inv in H. destruct H as (tt0 & s0 & _ & H).
    apply bind_inv in H. destruct H as (x & s1 & Hx & H). apply bind_inv in H. destruct H as (y & s2 & Hy & H).
    eapply do_div_mx; [eapply IH; eassumption|exact H].
  - apply bind_inv in H. destruct H as (x & s1 & Hx & H). destruct (IH _ _ _ Hx) as (m & -> & Em & _).
    unfold try_bare, lift_res in H. destruct (o_transpose V O (LV m)) as [w|] eqn:Et; inversion H; subst.
    + destruct (mx_transpose Mx m v Em Et) as (y & -> & Ey). exists y. split; [reflexivity|]. split; [exact Ey|discriminate].
    + exists m. split; [reflexivity|]. split; [exact Em|discriminate].
Qed.
(** What is refused *)
Theorem minus_matrix t : MatTree false t -> never (conv O l2s (TMinus t)).
Proof.
  intros Ht st _. cbn [conv]. unfold bind at 1. destruct (conv O l2s t st) as [[v|e] s1] eqn:E; [|eauto].
  destruct (matrix_value _ _ Ht _ _ _ E) as (m & -> & Em & _). unfold do_neg, is_matrix, bind, ret. rewrite Em. eexists _, _; reflexivity.
Qed.
Theorem minus_product s t : MatTree true t -> never (conv O l2s (TSub s t)).
Proof.
  intros Ht st _. cbn [conv]. unfold bind at 1. destruct (conv O l2s s st) as [[x|e] s1] eqn:E1; [|eauto].
  unfold bind at 1. destruct (conv O l2s t s1) as [[v|e] s2] eqn:E; [|eauto].
  destruct (matrix_value _ _ Ht _ _ _ E) as (m & -> & Em & Ep).
  unfold do_sub. unfold bind at 1. destruct (some_matrix O x (LV m) s2) as [[r|e] s3] eqn:Es; [|eauto].
  destruct (some_matrix_mx x (LV m) s2 r s3) as [-> ->]; [right; exists m; split; [reflexivity|]; split; [exact Em|discriminate]|exact Es|].
  unfold mat_mul_flat. change (flag (o_is_MatMul V O) (LV m)) with (o_is_MatMul V O m). rewrite (Ep eq_refl). rewrite orb_true_r.
  change (flat O (o_is_MatMul V O) (LInt (-1))) with [@LInt V (-1)]. eexists _, _; reflexivity.
Qed.
End Mx.
Theorem elementary_transformation l2s rows t ts : never (conv O l2s (TMatrix rows (t :: ts))).
Proof.
  cbn [conv transforms]. apply fails_r; [apply anything_kept|intro]. apply fails_r; [apply anything_kept|intro]. apply fails_l, fails_l.
  unfold transform. destruct t; [apply fails_r; [apply anything_kept|intro]|]; apply fails_raise.
Qed.
End Calls.
