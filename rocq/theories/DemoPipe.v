(** A back end for examples of the whole evaluation: unevaluated rational expressions, a number being
    an expression without symbols. *)
From Coq Require Import String List NArith ZArith QArith Qcanon Qabs Bool Lia Permutation.
From Verif Require Import PyStr PyStrTheory Normalize Monad MonadTheory L2S NumTheory L2SReject L2SValue DemoL2S Parser ParserTheory ParserNum DemoSympy Grammar Arith LatexForm Answer Pipeline Pair.
Import ListNotations.
Local Close Scope Qc_scope. Local Close Scope Q_scope.

(** ** Free of symbols *)
Definition BoolArith : arithmetic bool.
Proof.
  refine {| of_Q := fun _ => true; add := andb; mul := andb; opp := fun b => b; sub := andb; div := andb; power := andb; fn := fun _ l => forallb (fun b => b) l;
            const_I := true; const_oo := true; const_pi := true; const_E := true |}; intros; try (destruct x; reflexivity).
  destruct x, y; reflexivity.
Defined.
Fixpoint symbol_free (e : arith) : bool :=
  match e with
  | Num _ | Dec _ _ | Pct _ | Pi => true
  | Sym _ => false
  | Bin _ a b | Pow a b | Frac a b | Binom a b | Root a b | Juxt a b => symbol_free a && symbol_free b
  | Neg a | Scale _ a | Fact a | Exp a | Sqrt a | Abs a | Floor a | Ceil a | Fn _ a | Group a => symbol_free a
  end.
Lemma value_free e : value BoolArith (fun _ => false) e = symbol_free e.
Proof.
  induction e; cbn [value symbol_free BoolArith add sub mul div power opp fn const_pi of_Q forallb int_value]; rewrite ?IHe, ?IHe1, ?IHe2, ?andb_true_r; try reflexivity.
  - destruct o; cbn; rewrite ?andb_true_r; reflexivity.
  - apply andb_comm.
  - unfold fn_value. repeat match goal with |- context [if ?b then _ else _] => destruct b; [cbn; rewrite ?IHe, ?andb_true_r; reflexivity|] end.
    destruct (find _ _) as [[? ?]|]; cbn; rewrite ?IHe, ?andb_true_r; reflexivity.
Qed.
Fixpoint ex_free (e : ex) : bool :=
  match e with
  | ES _ | EMatSym _ _ _ => false
  | EAdd l | EMul l | EF _ l => (fix go l := match l with [] => true | x :: l' => ex_free x && go l' end) l
  | EPow a b => ex_free a && ex_free b
  | _ => true
  end.
Lemma free_all l : (fix go l := match l with [] => true | x :: l' => ex_free x && go l' end) l = forallb (fun b => b) (map ex_free l).
Proof. induction l as [|x l IH]; [reflexivity|]. cbn [map forallb]. rewrite <- IH. reflexivity. Qed.
Lemma free_sum l : forallb (fun b => b) (map ex_free l) = sum BoolArith (map ex_free l).
Proof. induction l as [|x l IH]; [reflexivity|]. cbn [map forallb sum fold_right]. rewrite IH. reflexivity. Qed.
Lemma free_product l : forallb (fun b => b) (map ex_free l) = product BoolArith (map ex_free l).
Proof. induction l as [|x l IH]; [reflexivity|]. cbn [map forallb product fold_right]. rewrite IH. reflexivity. Qed.
(** The value under a valuation, and whether there are symbols *)
Definition DemoArith : arithmetic (Qc * bool) := pair_arith QcArith BoolArith.
Definition demo_den (rho : pystr -> Qc) (e : ex) : Qc * bool := (DemoL2S.den rho e, ex_free e).
Lemma demo_sum rho l : sum DemoArith (map (demo_den rho) l) = (sum QcArith (map (DemoL2S.den rho) l), sum BoolArith (map ex_free l)).
Proof. exact (sum_pair QcArith BoolArith _ _ l). Qed.
Lemma demo_product rho l : product DemoArith (map (demo_den rho) l) = (product QcArith (map (DemoL2S.den rho) l), product BoolArith (map ex_free l)).
Proof. exact (product_pair QcArith BoolArith _ _ l). Qed.
Theorem demo_faithful parse rho : faithful DemoArith ex (demo_den rho) (fun x => (rho x, false)) [] (o_md5 _ (ESympy parse)) (ESympy parse).
Proof.
  constructor; intros; try (split; [reflexivity|reflexivity]); try reflexivity.
  - exists (EQ (Q2Qc q)). split; [apply ex_number_value; assumption|]. split; [split; reflexivity|reflexivity].
  - destruct v; cbn in H0; try discriminate. destruct H as [_ <-]. eexists; split; [reflexivity|]. split; reflexivity.
  - eexists; split; [reflexivity|]. split; [reflexivity|]. rewrite demo_sum, <- den_add, <- free_sum, <- free_all. reflexivity.
  - destruct v as [| | | | | |[|x l]| | | | | | | |]; try discriminate H0.
    split; [|split; [apply all_scalars; exact H0|discriminate]]. cbn [o_args ESympy]. rewrite demo_sum, <- den_add, <- free_sum, <- free_all. reflexivity.
  - eexists; split; [reflexivity|]. split; [reflexivity|]. rewrite demo_product, <- den_mul, <- free_product, <- free_all. reflexivity.
  - destruct v as [| | | | | | |[|x l]| | | | | | |]; try discriminate H0.
    split; [|split; [apply all_scalars; exact H0|discriminate]]. cbn [o_args ESympy]. rewrite demo_product, <- den_mul, <- free_product, <- free_all. reflexivity.
  - destruct v; cbn in H0; try discriminate. destruct H as [_ <-]. eexists; split; [reflexivity|]. split; [split; reflexivity|reflexivity].
  - destruct H as [_ <-], H0 as [_ <-]. eexists; split; [reflexivity|]. split; reflexivity.
  - destruct H as [_ <-]. eexists; split; [reflexivity|]. split; [reflexivity|]. unfold demo_den. cbn [DemoL2S.den ex_free].
    rewrite qc_power_minus_one, andb_true_r. cbn [div of_Q DemoArith pair_arith QcArith BoolArith fst snd andb]. unfold Qcdiv. f_equal. change (Q2Qc 1) with (1%Qc). ring.
  - destruct H0 as [_ <-]. destruct (fns1_plain f H) as [H1 H2]. cbn [o_call ESympy]. rewrite plain_call by assumption.
    eexists; split; [reflexivity|]. split; reflexivity.
  - destruct H0 as [_ <-], H1 as [_ <-]. destruct (fns2_plain f H) as [H1 H2]. cbn [o_call ESympy]. rewrite plain_call by assumption.
    eexists; split; [reflexivity|]. split; reflexivity.
  - destruct H as [_ <-]. eexists; split; [reflexivity|]. split; reflexivity.
  - eexists; split; [reflexivity|]. split; reflexivity.
  - destruct H as [_ <-]. eexists; split; [reflexivity|]. split.
    + destruct v; try discriminate. intro E. apply Qc_eq_bool_correct in E. unfold demo_den. cbn. f_equal. exact E.
    + destruct v; try discriminate. intros _ E. injection E as ->. vm_compute. reflexivity.
  - destruct H as [_ <-]. eexists; split; [reflexivity|].
    destruct v; try discriminate. intro E. apply negb_false_iff, Qc_eq_bool_correct in E. unfold demo_den. cbn. f_equal. exact E.
  - destruct H.
Qed.
Lemma demo_value rho e : value DemoArith (fun x => (rho x, false)) e = (value QcArith rho e, symbol_free e).
Proof. rewrite <- value_free. apply value_pair. Qed.

(** ** Numbers *)
(** An expression without symbols is the number it is worth. *)
Definition zero (x : pystr) : Qc := Q2Qc 0.
Definition demo_emb (v : lv ex) : qval :=
  match v with LV e => if ex_free e then VExpr (QN false (this (DemoL2S.den zero e))) else VExpr (QV 0) | _ => VNone end.
Definition near (v : qval) (q : Q) (i : bool) : Prop := exists p, (p == q)%Q /\ qnum v p i.
Lemma Qlt_bool_eq a b c : (a == b)%Q -> Qlt_bool a c = Qlt_bool b c.
Proof. intro E. apply eq_true_iff_eq. rewrite !Qlt_bool_iff, E. tauto. Qed.
Lemma near_exact t t' : exact (QSympy t t') near.
Proof.
  destruct (qexact t t') as [X1 X2 X3 X4 X5 X6 X7 X8 X9 X10 X11 X12 X13 X14].
  assert (Z : forall a b, (a == b)%Q -> Qeq_bool a 0 = Qeq_bool b 0) by (intros a b E; apply eq_true_iff_eq; rewrite !Qeq_bool_iff, E; tauto).
  split.
  - intros v q i (p & E & H). apply (X1 v p i H).
  - intros v q i (p & E & H). rewrite <- (Z p q E). apply (X2 v p i H).
  - intros v q i (p & E & H). rewrite <- (Z p q E). apply (X3 v p i H).
  - intros v q i (p & E & H). apply (X4 v p i H).
  - intros v q i (p & E & H). apply (X5 v p i H).
  - intros v q i (p & E & H). apply (X6 v p i H).
  - intros v q i (p & E & H). destruct (X7 v p i H) as (w & j & P & N). exists w, j. split; [exact P|]. exists (Qabs p). split; [rewrite E; reflexivity|exact N].
  - intros v q i (p & E & H). destruct (X8 v p i H) as (w & P & N). exists w. split; [exact P|]. exists p. split; [exact E|]. rewrite <- (Z p q E). exact N.
  - intros v q i t0 (p & E & H). rewrite <- (Qlt_bool_eq p q _ E). apply (X9 v p i t0 H).
  - intros v q i (p & E & H). replace (Qle_bool 1 q) with (Qle_bool 1 p) by (apply eq_true_iff_eq; rewrite !Qle_bool_iff, E; tauto). apply (X10 v p i H).
  - intros v q i (p & E & H). replace (Qlt_bool 0 q) with (Qlt_bool 0 p) by (apply eq_true_iff_eq; rewrite !Qlt_bool_iff, E; tauto). apply (X11 v p i H).
  - intros v q i w r j (p & E & H) (p' & E' & H') N. destruct (X12 v p i w p' j H H') as (x & k & P & Nx); [rewrite E'; exact N|].
    exists x, k. split; [exact P|]. exists (p / p')%Q. split; [rewrite E, E'; reflexivity|exact Nx].
  - intros v q i w r j (p & E & H) (p' & E' & H'). destruct (X13 v p i w p' j H H') as (x & k & P & Nx).
    exists x, k. split; [exact P|]. exists (p - p')%Q. split; [rewrite E, E'; reflexivity|exact Nx].
  - intros v q i w r j (p & E & H) (p' & E' & H'). destruct (X14 v p i w p' j H H') as (b & P & Nb). exists b. split; [exact P|]. intro Hb. rewrite <- E, <- E'. apply Nb, Hb.
Qed.
Lemma near_answers t t' : answers (QSympy t t') near.
Proof.
  split.
  - intros v q i (p & _ & f & -> & _). eexists. intro st. reflexivity.
  - intros v q i w r j (p & _ & f & -> & _) (p' & _ & f' & -> & _). eexists. intro st. reflexivity.
Qed.
Lemma near_worth parse v q : worth ex (demo_den zero) (ESympy parse) v (of_Q DemoArith q) -> exists i, near (demo_emb (LV v)) q i.
Proof.
  intros [_ E]. unfold demo_den in E. cbn [of_Q DemoArith pair_arith QcArith BoolArith] in E. injection E as E1 E2. unfold demo_emb. rewrite E2, E1.
  eexists. exists (Qred q). split; [apply Qred_correct|]. exists false. split; reflexivity.
Qed.

(** ** The whole evaluation *)
Definition the_parse (s : pystr) : res mtree := match parse_text s with Found t => Ret t | _ => Raise ValueError end.
Definition DO : LSympy ex := ESympy the_parse.
Definition DS : Sympy stream qexp unit nat Q := QSympy (fun _ => None) (fun _ => None).
Definition whole (n m : nat) := are_equal_with_simplify (joined DO (S n) demo_emb DS) (S m).
Lemma demo_parse s t : parse_text s = Found t -> o_parse _ DO s = Ret t.
Proof. intro H. cbn. unfold the_parse. rewrite H. reflexivity. Qed.
Lemma demo_python s q : python_agrees DS near s q.
Proof. left. intro st. exists ValueError. reflexivity. Qed.
Lemma demo_number e q : symbol_free e = true -> value QcArith zero e = Q2Qc q -> value DemoArith (fun x => (zero x, false)) e = of_Q DemoArith q.
Proof. intros F E. rewrite demo_value, F, E. reflexivity. Qed.
