(** A back end of unevaluated expressions with symbols, for examples: objects are evaluated exactly. *)
From Coq Require Import String List NArith ZArith QArith Qcanon Bool Lia Permutation.
From Verif Require Import PyStr PyStrTheory Normalize Monad MonadTheory L2S NumTheory L2SReject L2SValue DemoL2S Parser ParserTheory ParserNum Grammar Arith LatexForm Answer ParserMore Pipeline Pair Identity DemoPipe.
Import ListNotations.
Local Open Scope mon_scope.
Local Close Scope Qc_scope. Local Close Scope Q_scope.

(** ** The symbols of an object *)
Fixpoint syms (e : ex) : list pystr :=
  match e with
  | ES s => [s]
  | EAdd l | EMul l | EF _ l => (fix go l := match l with [] => [] | x :: l' => syms x ++ go l' end) l
  | EPow a b => syms a ++ syms b
  | _ => []
  end.
Definition occ (x : pystr) (e : ex) : bool := existsb (fun y => str_eqb y x) (syms e).
Lemma occ_list x l : existsb (fun y => str_eqb y x) ((fix go l := match l with [] => [] | x :: l' => syms x ++ go l' end) l) = existsb (fun b => b) (map (occ x) l).
Proof. induction l as [|a l IH]; [reflexivity|]. cbn [map existsb]. rewrite existsb_app, IH. reflexivity. Qed.
Lemma occ_sum (l : list bool) : existsb (fun b => b) l = sum OrArith l.
Proof. induction l as [|x l IH]; [reflexivity|]. cbn [existsb sum fold_right]. rewrite IH. reflexivity. Qed.
Lemma occ_product (l : list bool) : existsb (fun b => b) l = product OrArith l.
Proof. induction l as [|x l IH]; [reflexivity|]. cbn [existsb product fold_right]. rewrite IH. reflexivity. Qed.
Definition two_den (rho : pystr -> Qc) (x : pystr) (e : ex) : Qc * bool := (DemoL2S.den rho e, occ x e).
Lemma two_add rho x l : two_den rho x (EAdd l) = sum (pair_arith QcArith OrArith) (map (two_den rho x) l).
Proof. etransitivity; [|symmetry; exact (sum_pair QcArith OrArith (DemoL2S.den rho) (occ x) l)]. rewrite <- den_add, <- occ_sum, <- occ_list. reflexivity. Qed.
Lemma two_mul rho x l : two_den rho x (EMul l) = product (pair_arith QcArith OrArith) (map (two_den rho x) l).
Proof. etransitivity; [|symmetry; exact (product_pair QcArith OrArith (DemoL2S.den rho) (occ x) l)]. rewrite <- den_mul, <- occ_product, <- occ_list. reflexivity. Qed.
Lemma two_fn rho x f l : two_den rho x (EF f l) = fn (pair_arith QcArith OrArith) f (map (two_den rho x) l).
Proof.
  unfold two_den at 1, occ. cbn [DemoL2S.den syms fn pair_arith QcArith OrArith]. rewrite occ_list, !map_map. reflexivity.
Qed.
Theorem two_faithful parse rho x : faithful (pair_arith QcArith OrArith) ex (two_den rho x) (fun y => (rho y, str_eqb y x)) [] (o_md5 _ (ESympy parse)) (ESympy parse).
Proof.
  constructor; intros; try (split; [reflexivity|reflexivity]); try reflexivity.
  - split; [reflexivity|]. unfold two_den, occ. cbn. rewrite orb_false_r. reflexivity.
  - exists (EQ (Q2Qc q)). split; [apply ex_number_value; assumption|]. split; [split; reflexivity|reflexivity].
  - destruct v; cbn in H0; try discriminate. destruct H as [_ <-]. eexists; split; [reflexivity|]. split; reflexivity.
  - eexists; split; [reflexivity|]. split; [reflexivity|]. apply two_add.
  - destruct v as [| | | | | |[|y l]| | | | | | | |]; try discriminate H0.
    split; [|split; [apply all_scalars; exact H0|discriminate]]. apply two_add.
  - eexists; split; [reflexivity|]. split; [reflexivity|]. apply two_mul.
  - destruct v as [| | | | | | |[|y l]| | | | | | |]; try discriminate H0.
    split; [|split; [apply all_scalars; exact H0|discriminate]]. apply two_mul.
  - destruct v; cbn in H0; try discriminate. destruct H as [_ <-]. eexists; split; [reflexivity|]. split; [split; reflexivity|reflexivity].
  - destruct H as [_ <-], H0 as [_ <-]. eexists; split; [reflexivity|]. split; [reflexivity|]. unfold two_den, occ. cbn. rewrite existsb_app. reflexivity.
  - destruct H as [_ <-]. eexists; split; [reflexivity|]. split; [reflexivity|]. unfold two_den, occ. cbn [DemoL2S.den syms].
    rewrite qc_power_minus_one, existsb_app. cbn [div of_Q pair_arith QcArith OrArith fst snd orb existsb]. rewrite orb_false_r. unfold Qcdiv. f_equal. change (Q2Qc 1) with (1%Qc). ring.
  - destruct H0 as [_ <-]. destruct (fns1_plain f H) as [H1 H2]. cbn [o_call ESympy]. rewrite plain_call by assumption.
    eexists; split; [reflexivity|]. split; [reflexivity|]. apply two_fn.
  - destruct H0 as [_ <-], H1 as [_ <-]. destruct (fns2_plain f H) as [H1 H2]. cbn [o_call ESympy]. rewrite plain_call by assumption.
    eexists; split; [reflexivity|]. split; [reflexivity|]. apply two_fn.
  - destruct H as [_ <-]. eexists; split; [reflexivity|]. split; [reflexivity|]. apply two_fn.
  - eexists; split; [reflexivity|]. split; reflexivity.
  - destruct H as [_ <-]. eexists; split; [reflexivity|]. split.
    + destruct v; try discriminate. intro E. apply Qc_eq_bool_correct in E. unfold two_den. cbn. f_equal. exact E.
    + destruct v; try discriminate. intros _ E. injection E as ->. vm_compute. reflexivity.
  - destruct H as [_ <-]. eexists; split; [reflexivity|].
    destruct v; try discriminate. intro E. apply negb_false_iff, Qc_eq_bool_correct in E. unfold two_den. cbn. f_equal. exact E.
  - destruct H.
Qed.

(** ** The value depends on the symbols that occur *)
Lemma ex_list_ind (P : ex -> Prop) :
  (forall q, P (EQ q)) -> (forall s, P (ES s)) -> P EI -> P EOo -> P EPi -> P EE ->
  (forall l, Forall P l -> P (EAdd l)) -> (forall l, Forall P l -> P (EMul l)) -> (forall a b, P a -> P b -> P (EPow a b)) -> (forall f l, Forall P l -> P (EF f l)) ->
  (forall r, P (EMat r)) -> (forall s n m, P (EMatSym s n m)) -> (forall l, P (EMatMul l)) -> (forall l, P (EMatAdd l)) -> (forall m, P (EMatT m)) -> forall e, P e.
Proof.
  intros H1 H2 H3 H4 H5 H6 H7 H8 H9 H10 H11 H12 H13 H14 H15.
  fix IH 1. intros [q|s| | | | |l|l|a b|f l|r|s n m|l|l|m];
    [apply H1|apply H2|apply H3|apply H4|apply H5|apply H6|apply H7|apply H8|apply H9; apply IH|apply H10|apply H11|apply H12|apply H13|apply H14|apply H15];
    induction l as [|e l IHl]; constructor; [apply IH|exact IHl|apply IH|exact IHl|apply IH|exact IHl].
Qed.
Lemma den_ext e r1 r2 : (forall x, In x (syms e) -> r1 x = r2 x) -> DemoL2S.den r1 e = DemoL2S.den r2 e.
Proof.
  induction e using ex_list_ind; intro Hx; try reflexivity.
  - apply Hx. left. reflexivity.
  - cbn [DemoL2S.den]. cbn [syms] in Hx. induction H as [|a l Ha Hl IH]; [reflexivity|]. rewrite Ha by (intros x Hi; apply Hx, in_or_app; auto).
    f_equal. apply IH. intros x Hi. apply Hx, in_or_app. auto.
  - cbn [DemoL2S.den]. cbn [syms] in Hx. induction H as [|a l Ha Hl IH]; [reflexivity|]. rewrite Ha by (intros x Hi; apply Hx, in_or_app; auto).
    f_equal. apply IH. intros x Hi. apply Hx, in_or_app. auto.
  - cbn [DemoL2S.den]. cbn [syms] in Hx. rewrite IHe1, IHe2; [reflexivity| |]; intros x Hi; apply Hx, in_or_app; auto.
  - cbn [DemoL2S.den]. cbn [syms] in Hx. f_equal. induction H as [|a l Ha Hl IH]; [reflexivity|]. rewrite Ha by (intros x Hi; apply Hx, in_or_app; auto).
    f_equal. apply IH. intros x Hi. apply Hx, in_or_app. auto.
Qed.

(** ** The back end *)
Notation xval := (pyval ex unit).
(** random.randint(1, 10) *)
Definition drawn (n : Qc) : Prop := exists z : Z, (1 <= z <= 10)%Z /\ n = Q2Qc (inject_Z z).
Fixpoint at_env (env : list (pystr * Qc)) (x : pystr) : option Qc :=
  match env with [] => None | (y, n) :: env' => if str_eqb y x then Some n else at_env env' x end.
Definition by_env (env : list (pystr * Qc)) (x : pystr) : Qc := match at_env env x with Some n => n | None => Q2Qc 0 end.
Definition covered (env : list (pystr * Qc)) (e : ex) : bool := forallb (fun x => existsb (fun p => str_eqb (fst p) x) env) (syms e).
Definition minus (a b : ex) : ex := match a, b with EQ p, EQ q => EQ (Qcminus p q) | _, _ => EAdd [a; EMul [EQ (Q2Qc (-1)); b]] end.
Definition same_names (a b : list pystr) : bool := forallb (fun x => existsb (str_eqb x) b) a && forallb (fun x => existsb (str_eqb x) a) b.
Definition on_zero {B} (v : xval) (f : bool -> B) (d : B) : M (list N) B := match v with VExpr (EQ q) => ret (f (Qc_eq_bool q (Q2Qc 0))) | _ => ret d end.
(** The operations that do not matter here raise. *)
Definition XSympy : Sympy (list N) ex unit pystr Qc := {|
  op_latex2sympy := fun _ => raise ValueError; op_parse_latex := fun _ => raise ValueError; op_parse_expr := fun _ => raise ValueError;
  op_truthy := fun _ => ret true; op_eq := fun _ _ => ret false;
  op_sub := fun v w => match v, w with VExpr a, VExpr b => ret (VExpr (minus a b)) | _, _ => raise TypeError end;
  op_neg := fun _ => raise TypeError; op_div := fun _ _ => raise TypeError; op_inv := fun v => ret v;
  op_named_function := fun _ => ret false; op_is_symbol := fun v => ret (match v with VExpr (ES _) => true | _ => false end);
  op_has_I := fun _ => ret false; op_matrix := fun _ => raise TypeError; op_re := fun v => ret v; op_im := fun _ => raise TypeError;
  op_free_symbols := fun v => match v with VExpr e => ret (nodup str_eq_dec (syms e)) | _ => raise AttributeError end;
  op_same_symbols := same_names; op_sym_name := fun s => s; op_subs_I := fun _ _ => raise TypeError;
  op_is_number := fun v => match v with VExpr e => ret (match syms e with [] => true | _ => false end) | _ => raise AttributeError end;
  op_is_Integer := fun _ => ret false;
  op_evalf := fun v env => match v with VExpr e => if covered env e then ret (VExpr (EQ (DemoL2S.den (by_env env) e))) else ret v | _ => raise AttributeError end;
  op_expand_equal := fun _ _ => ret false; op_simplify := fun v => ret v; op_abs := fun _ => raise TypeError;
  op_eq0 := fun v => on_zero v (fun b => b) false; op_is_zero := fun v => on_zero v Some None;
  op_lt := fun _ _ => raise TypeError; op_ge1 := fun _ => raise TypeError; op_gt0 := fun _ => raise TypeError;
  op_rng := fun _ st => match st with [] => (Ret (Q2Qc 1), []) | k :: st' => (Ret (Q2Qc (inject_Z (1 + Z.of_N (N.modulo k 10)))), st') end |}.

Definition xexpr (v : xval) (f : (pystr -> Qc) -> Qc) (o : pystr -> bool) : Prop :=
  exists e, v = VExpr e /\ (forall rho, DemoL2S.den rho e = f rho) /\ forall x, occ x e = o x.
Definition xnumber (v : xval) (a : Qc) : Prop := v = VExpr (EQ a).
Definition xreal (n : Qc) : Qc := n.
Definition xdefined (a : Qc) : Prop := True.
Lemma occ_in x e : occ x e = true <-> In x (syms e).
Proof. unfold occ. rewrite existsb_exists. split; [intros (y & Hy & E); apply str_eqb_eq in E; subst; exact Hy|intro H; exists x; split; [exact H|apply str_eqb_refl]]. Qed.
Lemma in_existsb x (l : list pystr) : existsb (str_eqb x) l = true <-> In x l.
Proof. rewrite existsb_exists. split; [intros (y & Hy & E); apply str_eqb_eq in E; subst; exact Hy|intro H; exists x; split; [exact H|apply str_eqb_refl]]. Qed.
Lemma minus_den rho a b : DemoL2S.den rho (minus a b) = Qcminus (DemoL2S.den rho a) (DemoL2S.den rho b).
Proof.
  assert (H : DemoL2S.den rho (EAdd [a; EMul [EQ (Q2Qc (-1)); b]]) = Qcminus (DemoL2S.den rho a) (DemoL2S.den rho b)).
  { cbn [DemoL2S.den]. change (Q2Qc (-1)) with (Qcopp (Q2Qc 1)). change (Q2Qc 1) with 1%Qc. change (Q2Qc 0) with 0%Qc. ring. }
  destruct a; try exact H. destruct b; try exact H. reflexivity.
Qed.
Lemma drawn_one : drawn (Q2Qc 1).
Proof. exists 1%Z. split; [lia|reflexivity]. Qed.
Theorem xsymbolic : symbolic XSympy xexpr xnumber drawn xreal xdefined.
Proof.
  split.
  - intros v f o (e & -> & _). exists e. split; [reflexivity|intro st; reflexivity].
  - intros v f o (e & -> & _ & Ho). exists (nodup str_eq_dec (syms e)). split; [intro st; reflexivity|]. cbn [op_sym_name XSympy]. rewrite map_id.
    split; [apply NoDup_nodup|]. intro x. rewrite nodup_In, <- Ho. symmetry. apply occ_in.
  - cbn [op_sym_name op_same_symbols XSympy]. intros f1 f2. rewrite !map_id. intro H. unfold same_names. apply andb_true_intro.
    split; apply forallb_forall; intros x Hx; apply in_existsb, H, Hx.
  - intros v f o x (e & -> & _ & Ho) Hx. intro st. cbn. rewrite <- Ho in Hx. apply occ_in in Hx. destruct (syms e); [destruct Hx|reflexivity].
  - intros v f o env rho (e & -> & Hf & Ho) Hc Hr HR _. cbn [op_sym_name XSympy] in Hc. rewrite map_id in Hc. cbn [op_sym_name XSympy] in Hr.
    exists (VExpr (EQ (f rho))). split; [|reflexivity]. intro st. cbn [op_evalf XSympy].
    assert (covered env e = true) as ->.
    { apply forallb_forall. intros x Hx. apply occ_in in Hx. rewrite Ho in Hx. apply Hc in Hx. apply in_map_iff in Hx as ([y n] & <- & Hi).
      apply existsb_exists. exists (y, n). split; [exact Hi|apply str_eqb_refl]. }
    cbn. f_equal. f_equal. f_equal. rewrite <- Hf. apply den_ext. intros x Hx. apply occ_in in Hx. rewrite Ho in Hx. apply Hc in Hx.
    unfold by_env. clear - Hx Hr. induction env as [|[y n] env IH]; [destruct Hx|]. cbn [at_env]. destruct (str_eqb y x) eqn:Q.
    + apply str_eqb_eq in Q. subst y. symmetry. apply (Hr x n). left. reflexivity.
    + apply IH; [intros s k Hi; apply Hr; right; exact Hi|]. destruct Hx as [Hx|Hx]; [|exact Hx]. cbn in Hx. subst y. rewrite str_eqb_refl in Q. discriminate.
  - unfold xnumber. intros w1 w2 a -> ->. split; [discriminate|]. split; [discriminate|]. exists (EQ (Qcminus a a)). split; [intro st; reflexivity|]. intro st. cbn.
    replace (Qcminus a a) with (Q2Qc 0) by (change (Q2Qc 0) with 0%Qc; ring). reflexivity.
  - intros [|k st]; cbn; [exists (Q2Qc 1), []; split; [reflexivity|apply drawn_one]|]. eexists _, _. split; [reflexivity|]. exists (1 + Z.of_N (N.modulo k 10))%Z. split; [|reflexivity].
    pose proof (N.mod_lt k 10 ltac:(discriminate)) as L. apply N2Z.inj_lt in L. pose proof (N2Z.is_nonneg (N.modulo k 10)). cbn [Z.of_N] in L. lia.
  - intros. exists (Some false). intro st. reflexivity.
  - intros v f o w g o' (a & -> & Ha & _) (b & -> & Hb & _) Hfg. right. exists (minus a b).
    assert (Z : DemoL2S.den (fun _ => Q2Qc 1) (minus a b) = Q2Qc 0).
    { rewrite minus_den, Ha, Hb, Hfg by (intro x; exists (Q2Qc 1); split; [apply drawn_one|reflexivity]). change (Q2Qc 0) with 0%Qc. ring. }
    destruct (syms (minus a b)) as [|s l] eqn:Es.
    + exists true, (Some (VExpr (EQ (Q2Qc 0)))). split; [intro st; reflexivity|]. split; [intro st; cbn; rewrite Es; reflexivity|]. split.
      * intro st. cbn [op_evalf XSympy]. unfold covered. rewrite Es. cbn. f_equal. f_equal. f_equal. rewrite <- Z. apply den_ext. rewrite Es. intros x [].
      * exists (EQ (Q2Qc 0)). split; [reflexivity|]. left. intro st. reflexivity.
    + exists false, (Some (VExpr (minus a b))). split; [intro st; reflexivity|]. split; [intro st; cbn; rewrite Es; reflexivity|]. split; [intro st; reflexivity|].
      exists (minus a b). split; [reflexivity|]. right. destruct (minus a b) eqn:Em; try discriminate Es; (split; [intro st; reflexivity|]; exists None; split; [intro st; reflexivity|]; intros _ st; cbn [op_is_number XSympy]; rewrite Es; reflexivity).
Qed.
Definition xemb (v : lv ex) : xval := match v with LV e => VExpr e | _ => VNone end.
Lemma xemb_expr parse v f o : (forall rho, worth ex (DemoL2S.den rho) (ESympy parse) v (f rho)) -> (forall x, occ x v = o x) -> xexpr (xemb (LV v)) f o.
Proof. intros H Ho. exists v. split; [reflexivity|]. split; [intro rho; apply H|exact Ho]. Qed.
Definition xwhole (n m : nat) := are_equal_with_simplify (joined DO (S n) xemb XSympy) (S m).
Lemma xsymbols n e : wf e -> has_symbols DO (S n) occ (tight e) (fun x => occurs x e).
Proof. intro W. apply (symbols_kept DO QcArith (DemoL2S.den zero) zero occ (fun x => two_faithful the_parse zero x) demo_parse n [] e (or_introl eq_refl) W). Qed.
Theorem xsound : sound XSympy xexpr Qcminus.
Proof.
  split.
  - intros. exists (Some false). split; [intro st; reflexivity|discriminate].
  - intros v f o w g o' (a & -> & Ha & _) (b & -> & Hb & _) [_ Hfg]. right. exists (minus a b).
    destruct (syms (minus a b)) as [|s l] eqn:Es.
    + exfalso. destruct (Hfg (DemoL2S.den zero (minus a b))) as [rho C]. apply C. rewrite <- Ha, <- Hb, <- minus_den. apply den_ext. rewrite Es. intros x [].
    + exists false, (Some (VExpr (minus a b))). split; [intro st; reflexivity|]. split; [intro st; cbn; rewrite Es; reflexivity|]. split; [intro st; reflexivity|].
      exists (minus a b), None. split; [reflexivity|].
      destruct (minus a b) eqn:Em; try discriminate Es; (split; [intro st; reflexivity|]; split; [intro st; reflexivity|]; split; [discriminate|]; intro st; cbn [op_is_number XSympy]; rewrite Es; reflexivity).
  - cbn [op_sym_name op_same_symbols XSympy]. intros f1 f2. rewrite !map_id. unfold same_names. intros H x. apply andb_true_iff in H as [H1 H2]. rewrite forallb_forall in H1, H2.
    split; intro Hx; apply in_existsb; auto.
Qed.
Lemma xcomparable : comparable XSympy xexpr.
Proof. split; intros; eexists; intro st; reflexivity. Qed.
