(** C120: intervals with an end that is no number.  C121: no acceptance without evidence. *)
From Coq Require Import String List NArith ZArith QArith Bool Lia.
From Verif Require Import PyStr SplitTheory NormClean Monad MonadTheory Interval IntervalTheory IntervalSym Parser ParserTheory ParserNum DemoSympy Evidence.
Import ListNotations.
Local Open Scope mon_scope.
Local Close Scope Q_scope.
Local Open Scope nat_scope.

(** ** C120 *)
Theorem C120_no_order St V S (IS : ISympy St V S) i v w nv nw : plain i -> end_read IS (without opening (w_lo i)) v nv -> end_read IS (without closing (w_hi i)) w nw -> nv && nw = false ->
  forall st, exists st', one_interval IS (text i) st = iv_interval _ _ _ IS v w (open_left i) (open_right i) st'.
Proof. exact (symbolic_interval IS i v w nv nw). Qed.
Print Assumptions C120_no_order.
Theorem C120_alone St V S (IS : ISympy St V S) i v w nv nw s s' : plain i -> end_read IS (without opening (w_lo i)) v nv -> end_read IS (without closing (w_hi i)) w nw -> nv && nw = false ->
  pure_to (iv_interval _ _ _ IS v w (open_left i) (open_right i)) s -> pure_to (iv_is_empty _ _ _ IS (iv_empty _ _ _ IS)) true ->
  pure_to (iv_union _ _ _ IS (iv_empty _ _ _ IS) s) s' -> pure_to (interval_of IS (text i)) s'.
Proof. exact (symbolic_alone IS i v w nv nw s s'). Qed.
Print Assumptions C120_alone.
(* a back end whose objects are texts, in which the order of two objects cannot be decided *)
Definition TSympy : ISympy unit pystr (list (bool * pystr * pystr * bool)) := {|
  iv_latex2sympy := fun s => ret s;
  iv_is_number := fun s => ret (forallb (fun c => N.leb 48 c && N.leb c 57)%N s);
  iv_evalf := fun s => ret s;
  iv_is_int := fun _ => ret true;
  iv_Integer := fun s => ret s;
  iv_gt := fun _ _ => raise TypeError;
  iv_interval := fun a b lo ro => ret [(lo, a, b, ro)];
  iv_empty := [];
  iv_is_empty := fun s => ret (match s with [] => true | _ => false end);
  iv_intersect := fun s t => ret s;
  iv_union := fun s t => ret (s ++ t) |}.
Definition i_3a : written := {| w_lopen := false; w_lo := u "3"; w_hi := u "2a"; w_ropen := true |}.
Lemma plain_3a : plain i_3a.
Proof. repeat split; try (vm_compute; intuition discriminate); apply contains_free; reflexivity. Qed.
Example C120_ex : plain i_3a /\ end_read TSympy (without opening (w_lo i_3a)) (u "3") true /\ end_read TSympy (without closing (w_hi i_3a)) (u "2a") false /\
  pure_to (interval_of TSympy (u "[3,2a)")) [(false, u "3", u "2a", true)].
Proof.
  assert (E1 : end_read TSympy (without opening (w_lo i_3a)) (u "3") true).
  { exists (u "3"). split; [intro; reflexivity|]. split; [intro; reflexivity|]. right. split; [intro; reflexivity|]. exists (u "3"). split; [intro; reflexivity|]. right. split; intro; reflexivity. }
  assert (E2 : end_read TSympy (without closing (w_hi i_3a)) (u "2a") false).
  { exists (u "2a"). split; [intro; reflexivity|]. split; [intro; reflexivity|]. left. split; [intro; reflexivity|reflexivity]. }
  split; [exact plain_3a|]. split; [exact E1|]. split; [exact E2|].
  exact (C120_alone _ _ _ TSympy i_3a _ _ _ _ _ _ plain_3a E1 E2 eq_refl (fun st => eq_refl) (fun st => eq_refl) (fun st => eq_refl)).
Qed.

(** ** C121 *)
Theorem C121_evidence St E Ob Sym Num (SP : Sympy St E Ob Sym Num) n gt gv st st' : sane SP -> are_equal_under_sympy_repo SP n gt gv st = (Ret true, st') ->
  exists v w, reading SP gt v /\ reading SP gv w /\ accepted SP v w.
Proof. exact (fun H => acceptance SP H n gt gv st st'). Qed.
Print Assumptions C121_evidence.
Theorem C121_scalar St E Ob Sym Num (SP : Sympy St E Ob Sym Num) v w st st' : sane SP -> scalar_equal SP v w st = (Ret true, st') -> same_scalar SP v w.
Proof. exact (fun H => scalar_inv SP H v w st st'). Qed.
Print Assumptions C121_scalar.
Definition reads_some (s : pystr) : option qval :=
  if str_eqb s (u "(x+x,2)") then Some (VTuple [VExpr (QAdd (QV 0) (QV 0)); VExpr (QN false 2); VExpr (QN false 1)])
  else if str_eqb s (u "(2*x,2)") then Some (VTuple [VExpr (QMul (QN false 2) (QV 0)); VExpr (QN false 2); VExpr (QN true 1)]) else None.
Local Notation Q0 := (QSympy (fun _ => None) reads_some).
Lemma q_sane t t' : sane (QSympy t t').
Proof.
  split; [intros v d (st & st' & H); destruct v; discriminate H|]. split; [intros v d (st & st' & H); destruct v; discriminate H|].
  intros v w d l r (st & st' & H). destruct v; try discriminate H. destruct w; try discriminate H. injection H as <- _. discriminate.
Qed.
(* the entries are found equal by sampling, and as numbers *)
Example C121_ex : sane Q0 /\ exists st', are_equal_under_sympy_repo Q0 9 (u "(x+x,2)") (u "(2*x,2)") [3; 4]%Q = (Ret true, st').
Proof. split; [apply q_sane|]. eexists. vm_compute. reflexivity. Qed.
(* the evidence is not for nothing: there is none that 1 is 2 *)
Definition q1 : qval := VExpr (QN false 1).
Definition q2 : qval := VExpr (QN false 2).
Local Ltac ge := repeat match goal with H : gives _ _ |- _ => let H' := fresh in destruct H as (? & ? & H'); cbn in H'; unfold ret, raise in H'; first [discriminate H'|injection H' as <- _|injection H' as _] end.
Example C121_ex2 : ~ accepted Q0 q1 q2.
Proof.
  intro H. remember q1 as v eqn:Ev. remember q2 as w eqn:Ew.
  assert (forall v w, accepted Q0 v w -> (exists f g, v = VExpr (QN f 1) /\ w = VExpr (QN g 2)) -> False) as K; [|exact (K v w H ltac:(subst; exists false, false; split; reflexivity))].
  clear. fix IH 3. intros v w H (f & g & Ev & Ew). destruct H; try discriminate Ev; try discriminate Ew; subst.
  - refine (IH _ _ H3 _). ge. exists f, g. split; reflexivity.
  - refine (IH _ _ H1 _). exists f, g. split.
    + destruct H as [(s & H & _)|H]; [ge|exact H].
    + destruct H0 as [(s & H0 & _)|H0]; [ge|exact H0].
  - destruct H as [(l & r & H & _)|(l & r & H & _)]; discriminate H.
  - destruct H as (a & b & Ha & Hb & H).
    assert (A : exists k, a = VExpr (QN k 1)) by (destruct Ha as [[_ Ha]|[Ha _]]; ge; eexists; reflexivity).
    assert (B : exists k, b = VExpr (QN k 2)) by (destruct Hb as [[_ Hb]|[Hb _]]; ge; eexists; reflexivity).
    destruct A as [k ->], B as [k' ->]. destruct H as [H|[(d & s & Hd & Hs & H)|((s & l & H) & _)]]; [ge| |ge].
    assert (S : exists m, s = VExpr (QN m (1 - 2))).
    { destruct Hd as (? & ? & Hd). cbn in Hd. injection Hd as <- _. destruct Hs as [[_ Hs]|[Hs _]]; ge. eexists. reflexivity. }
    destruct S as [m ->]. assert (T : forall t x, gives (op_abs _ _ _ _ _ Q0 (VExpr (QN x (1 - 2)))) t -> t = VExpr (QN x 1)) by (intros; ge; reflexivity).
    assert (N : forall t x, ~ tiny Q0 (VExpr (QN x (1 - 2))) t) by (intros t x (y & Hy & [Hl|(e & He & Hl)]); apply T in Hy; subst y; destruct t; ge).
    destruct H as [[Z|Z]|(_ & [[Z _]|[[Z _]|(q & y & Hq & Z & _)]])]; [ge|ge|exact (N _ _ Z)|exact (N _ _ Z)|].
    destruct Hq as (? & ? & Hq). cbn in Hq. injection Hq as <- _. destruct Z as (y' & Hy & [Hl|(e & He & Hl)]); ge.
Qed.
