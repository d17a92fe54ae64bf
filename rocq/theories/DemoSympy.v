(** A small concrete back end: rational expressions with exact arithmetic.  It is used only in
    examples, to show that hypotheses on the back end can be met, and as witness of findings. *)
From Coq Require Import String List NArith ZArith QArith Qabs Qround Bool Arith Lia.
From Verif Require Import PyStr Monad MonadTheory Parser ParserTheory ParserNum.
Import ListNotations.
Local Open Scope mon_scope.
Local Open Scope nat_scope.

(** [QN float q]: a number object, Float or exact; [QV x] a symbol; [QF name a] an applied function;
    [QC] a complex number. *)
Inductive qexp := QN (float : bool) (q : Q) | QV (x : nat) | QAdd (a b : qexp) | QMul (a b : qexp) | QF (name : nat) (a : qexp) | QC (re im : Q).
Definition qval := pyval qexp unit.
(** The state: the numbers the random generator will give. *)
Definition stream := list Q.

Fixpoint lookup (x : nat) (env : list (nat * Q)) : option Q :=
  match env with [] => None | (y, q) :: env' => if Nat.eqb x y then Some q else lookup x env' end.
Fixpoint qeval (env : list (nat * Q)) (e : qexp) : option Q :=
  match e with
  | QN _ q => Some q
  | QV x => lookup x env
  | QAdd a b => match qeval env a, qeval env b with Some p, Some q => Some (p + q)%Q | _, _ => None end
  | QMul a b => match qeval env a, qeval env b with Some p, Some q => Some (p * q)%Q | _, _ => None end
  | QF _ _ | QC _ _ => None
  end.
Fixpoint qvars (e : qexp) : list nat :=
  match e with QN _ _ | QC _ _ => [] | QV x => [x] | QAdd a b | QMul a b => qvars a ++ qvars b | QF _ a => qvars a end.
Fixpoint qeqb (a b : qexp) : bool :=
  match a, b with
  | QN _ p, QN _ q => Qeq_bool p q
  | QV x, QV y => Nat.eqb x y
  | QAdd a1 a2, QAdd b1 b2 | QMul a1 a2, QMul b1 b2 => qeqb a1 b1 && qeqb a2 b2
  | QF f a, QF g b => Nat.eqb f g && qeqb a b
  | QC p q, QC p' q' => Qeq_bool p p' && Qeq_bool q q'
  | _, _ => false
  end.
Definition is_int (q : Q) : bool := Qeq_bool q (inject_Z (Qfloor q)).
Definition qsub (a b : qexp) : qexp :=
  match a, b with QN f p, QN g q => QN (f || g) (p - q)%Q | _, _ => QAdd a (QMul (QN false (-1)) b) end.
Definition on_number {A} (v : qval) (f : bool -> Q -> A) (d : A) : M stream A :=
  match v with VExpr (QN b q) => ret (f b q) | _ => ret d end.
Definition veqb (v w : qval) : bool := match v, w with VExpr a, VExpr b => qeqb a b | _, _ => false end.

(** every symbol taken for the imaginary unit *)
Fixpoint ceval (e : qexp) : Q * Q :=
  match e with
  | QN _ q => (q, 0) | QV _ => (0, 1) | QC p q => (p, q) | QF _ _ => (0, 0)
  | QAdd a b => (fst (ceval a) + fst (ceval b), snd (ceval a) + snd (ceval b))
  | QMul a b => (fst (ceval a) * fst (ceval b) - snd (ceval a) * snd (ceval b), fst (ceval a) * snd (ceval b) + snd (ceval a) * fst (ceval b))
  end%Q.

(** [t] is what latex2sympy reads, [t'] what sympy's own parser reads. *)
Definition QSympy (t t' : pystr -> option qval) : Sympy stream qexp unit nat Q := {|
  op_latex2sympy := fun s => match t s with Some v => ret v | None => raise ValueError end;
  op_parse_latex := fun _ => raise ValueError;
  op_parse_expr := fun s => match t' s with Some v => ret v | None => raise ValueError end;
  op_truthy := fun v => match v with VExpr (QN _ q) => ret (negb (Qeq_bool q 0)) | _ => ret true end;
  op_eq := fun v w => ret (veqb v w);
  op_sub := fun v w => match v, w with VExpr a, VExpr b => ret (VExpr (qsub a b)) | _, _ => raise TypeError end;
  op_neg := fun v => match v with VExpr a => ret (VExpr (QMul (QN false (-1)) a)) | _ => raise TypeError end;
  op_div := fun v w => match v, w with VExpr (QN f p), VExpr (QN g q) => ret (VExpr (QN (f || g) (p / q)%Q)) | _, _ => raise TypeError end;
  op_inv := fun v => ret v;
  op_named_function := fun v => match v with VExpr (QF _ _) => ret true | _ => ret false end;
  op_is_symbol := fun v => match v with VExpr (QV _) => ret true | _ => ret false end;
  op_has_I := fun e => ret (match e with QC _ _ => true | _ => false end);
  op_matrix := fun l => match l with [] => ret (0, 0, fun _ _ => VNone) | _ => ret (length l, 1, fun i _ => nth i l VNone) end;
  op_re := fun v => match v with VExpr (QC a _) => ret (VExpr (QN false a)) | _ => ret v end;
  op_im := fun v => match v with VExpr (QC _ b) => ret (VExpr (QN false b)) | _ => ret (VExpr (QN false 0)) end;
  op_free_symbols := fun v => match v with VExpr e => ret (nodup Nat.eq_dec (qvars e)) | _ => ret [] end;
  op_same_symbols := fun a b => forallb (fun x => existsb (Nat.eqb x) b) a && forallb (fun x => existsb (Nat.eqb x) a) b;
  op_sym_name := fun x => if Nat.eqb x 8 then u "i" else u "x";
  op_subs_I := fun v _ => match v with VExpr e => ret (VExpr (QC (fst (ceval e)) (snd (ceval e)))) | _ => raise TypeError end;
  op_is_number := fun v => match v with VExpr e => ret (match qvars e with [] => true | _ => false end) | _ => ret false end;
  op_is_Integer := fun v => on_number v (fun f q => negb f && is_int q) false;
  op_evalf := fun v env => match v with VExpr e => match qeval env e with Some q => ret (VExpr (QN (negb (Qeq_bool q 0)) q)) | None => ret v end | _ => raise TypeError end;
  op_expand_equal := fun v w => ret (veqb v w);
  op_simplify := fun v => ret v;
  op_abs := fun v => match v with VExpr (QN f q) => ret (VExpr (QN f (Qabs q))) | _ => raise TypeError end;
  op_eq0 := fun v => on_number v (fun _ q => Qeq_bool q 0) false;
  op_is_zero := fun v => on_number v (fun _ q => Some (Qeq_bool q 0)) None;
  op_lt := fun v t => on_number v (fun _ q => Some (Qlt_bool q (threshold t))) None;
  op_ge1 := fun v => on_number v (fun _ q => Some (Qle_bool 1 q)) None;
  op_gt0 := fun v => on_number v (fun _ q => Some (Qlt_bool 0 q)) None;
  op_rng := fun _ st => match st with [] => (Ret 1%Q, []) | q :: st' => (Ret q, st') end |}.

Definition qnum (v : qval) (q : Q) (i : bool) : Prop := exists f, v = VExpr (QN f q) /\ i = negb f && is_int q.
Lemma is_int_zero q : (q == 0)%Q -> is_int q = true.
Proof. intro H. apply Qeq_bool_iff. rewrite (Qfloor_comp _ _ H). exact H. Qed.
Lemma qexact t t' : exact (QSympy t t') qnum.
Proof.
  split; try (intros v q i w p j (f & -> & ->) (g & -> & ->)); try (intros v q i (f & -> & ->)); try (intros v q i t0 (f & -> & ->)); cbn.
  - eexists; split; [reflexivity|intro st; reflexivity].
  - intro st; reflexivity.
  - intro st; reflexivity.
  - intro st; reflexivity.
  - intro st; reflexivity.
  - intro st; reflexivity.
  - do 2 eexists; split; [intro st; reflexivity|eexists; split; reflexivity].
  - eexists; split; [intro st; reflexivity|eexists; split; [reflexivity|]]; cbn; rewrite negb_involutive; destruct (Qeq_bool q 0) eqn:Z0; [|reflexivity]; symmetry; apply is_int_zero, Qeq_bool_iff, Z0.
  - intro st; reflexivity.
  - intro st; reflexivity.
  - intro st; reflexivity.
  - intros _. do 2 eexists; split; [intro st; reflexivity|eexists; split; reflexivity].
  - do 2 eexists; split; [intro st; reflexivity|eexists; split; reflexivity].
  - eexists; split; [intro st; reflexivity|]. apply Qeq_bool_iff.
Qed.
Lemma qrng_returns t t' : rng_returns (QSympy t t').
Proof. intros f [|q st]; do 2 eexists; reflexivity. Qed.
(** Numbers drawn, measured by what is left of a stream of [n]. *)
Lemma qcounts t t' n : counts (QSympy t t') (fun st => n - length st).
Proof.
  split; try (intros; intro st; destruct v as [| | | | |[]| | |]; try destruct w as [| | | | |[]| | |]; try reflexivity; cbn; match goal with |- context [match ?x with _ => _ end] => destruct x end; reflexivity).
  - intros f [|q st]; cbn; lia.
Qed.
