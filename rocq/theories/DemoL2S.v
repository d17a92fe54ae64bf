(** A SymPy of unevaluated expressions over the rationals, used in examples. *)
From Coq Require Import String List NArith ZArith QArith Qcanon Bool Lia.
From Verif Require Import PyStr PyStrTheory Regex Normalize Monad L2S NumTheory L2SReject L2SValue.
Import ListNotations.
Local Close Scope Qc_scope. Local Close Scope Q_scope.

Inductive ex :=
| EQ (q : Qc) | ES (s : pystr) | EI | EOo | EPi | EE
| EAdd (l : list ex) | EMul (l : list ex) | EPow (a b : ex) | EF (f : pystr) (l : list ex)
| EMat (rows : list (list ex)) | EMatSym (s : pystr) (n m : ex) | EMatMul (l : list ex) | EMatAdd (l : list ex) | EMatT (m : ex).

(** Powers with integral exponents; the value of other powers and of most functions does not matter here. *)
Definition qc_power (x y : Qc) : Qc :=
  match this y with
  | (Z0 # 1)%Q => Q2Qc 1
  | (Zpos p # 1)%Q => Qcpower x (Pos.to_nat p)
  | (Zneg p # 1)%Q => Qcinv (Qcpower x (Pos.to_nat p))
  | _ => Q2Qc 0
  end.
Definition qc_fn (f : pystr) (l : list Qc) : Qc :=
  match l with
  | [x] => if str_eqb f (u "Abs") then (if Qclt_le_dec x (Q2Qc 0) then Qcopp x else x) else Q2Qc 7
  | _ => Q2Qc 0
  end.
Lemma qc_power_minus_one x : qc_power x (Q2Qc (-1)) = Qcinv x.
Proof. unfold qc_power. change (this (Q2Qc (-1))) with (-1 # 1)%Q. cbv iota. change (Pos.to_nat 1) with 1%nat. cbn [Qcpower]. f_equal. apply Qcmult_1_r. Qed.
Definition QcArith : arithmetic Qc.
Proof.
  refine {| of_Q := Q2Qc; add := Qcplus; mul := Qcmult; opp := Qcopp; sub := Qcminus; div := Qcdiv; power := qc_power; fn := qc_fn;
            const_I := Q2Qc 0; const_oo := Q2Qc 0; const_pi := Q2Qc 3; const_E := Q2Qc 2 |}.
  - apply Qcplus_assoc. - apply Qcplus_0_l. - apply Qcplus_0_r. - apply Qcmult_assoc. - apply Qcmult_1_l. - apply Qcmult_1_r.
  - reflexivity.
  - intro x. change (Q2Qc (-1)) with (Qcopp (Q2Qc 1)). ring.
  - intros x y. rewrite qc_power_minus_one. reflexivity.
Defined.

Section Den.
Variable rho : pystr -> Qc.
Fixpoint den (e : ex) : Qc :=
  match e with
  | EQ q => q | ES s => rho s | EI => Q2Qc 0 | EOo => Q2Qc 0 | EPi => Q2Qc 3 | EE => Q2Qc 2
  | EAdd l => (fix go l := match l with [] => Q2Qc 0 | x :: l' => Qcplus (den x) (go l') end) l
  | EMul l => (fix go l := match l with [] => Q2Qc 1 | x :: l' => Qcmult (den x) (go l') end) l
  | EPow a b => qc_power (den a) (den b)
  | EF f l => qc_fn f ((fix go l := match l with [] => [] | x :: l' => den x :: go l' end) l)
  | _ => Q2Qc 0
  end.
Lemma den_add l : den (EAdd l) = sum QcArith (map den l).
Proof. cbn [den]. induction l as [|x l IH]; [reflexivity|]. 
  change (Qcplus (den x) ((fix go l := match l with [] => Q2Qc 0 | x :: l' => Qcplus (den x) (go l') end) l) = Qcplus (den x) (sum QcArith (map den l))).
  rewrite IH. reflexivity.
Qed.
Lemma den_mul l : den (EMul l) = product QcArith (map den l).
Proof. cbn [den]. induction l as [|x l IH]; [reflexivity|]. 
  change (Qcmult (den x) ((fix go l := match l with [] => Q2Qc 1 | x :: l' => Qcmult (den x) (go l') end) l) = Qcmult (den x) (product QcArith (map den l))).
  rewrite IH. reflexivity.
Qed.
End Den.

Fixpoint at_dot (s : pystr) : pystr * option pystr :=
  match s with
  | [] => ([], None)
  | c :: s' => if N.eqb c 46 then ([], Some s') else let (a, b) := at_dot s' in (c :: a, b)
  end.
Definition ex_number (s : pystr) : res ex :=
  let (a, b) := at_dot s in
  let all := forallb (fun c => N.leb 48 c && N.leb c 57) in
  match b with
  | None => if all a then Ret (EQ (Q2Qc (inject_Z (Z.of_N (dec_value a))))) else Raise TypeError
  | Some b => if all (a ++ b) then Ret (EQ (Q2Qc (Z.of_N (dec_value (a ++ b)) # Pos.pow 10 (Pos.of_nat (List.length b))))) else Raise TypeError
  end.
Fixpoint as_ex (l : list (lv ex)) : option (list ex) :=
  match l with
  | [] => Some []
  | LV v :: l' => option_map (cons v) (as_ex l')
  | LInt z :: l' => option_map (cons (EQ (Q2Qc (inject_Z z)))) (as_ex l')
  | _ => None
  end.
Fixpoint as_rows (l : list (list (lv ex))) : option (list (list ex)) :=
  match l with
  | [] => Some []
  | r :: l' => match as_ex r, as_rows l' with Some r, Some l' => Some (r :: l') | _, _ => None end
  end.
Definition ex_is_matrix (e : ex) : bool := match e with EMat _ | EMatSym _ _ _ | EMatMul _ | EMatAdd _ | EMatT _ => true | _ => false end.
Definition ex_call (f : pystr) (l : list (lv ex)) : res (lv ex) :=
  if str_eqb f (u "rows") then match l with [LV (EMat rows)] => Ret (LL (map (fun r => LV (EMat [r])) rows)) | _ => Raise AttributeError end
  else if str_eqb f (u "eigenvals") then match l with [LV v] => Ret (LTD v) | _ => Raise AttributeError end
  else match as_ex l with Some l => Ret (LV (EF f l)) | None => Raise TypeError end.
Definition ex_truthy (v : lv ex) : res bool :=
  Ret (match v with LV (EQ q) => negb (Qc_eq_bool q (Q2Qc 0)) | LNone | LL [] => false | _ => true end).
(** [parse]: the parser on prepared texts *)
Definition ESympy (parse : pystr -> res mtree) : LSympy ex := {|
  o_parse := parse;
  o_int := fun z => EQ (Q2Qc (inject_Z z));
  o_symbol := fun s _ => ES s;
  o_I := EI; o_oo := EOo; o_pi := EPi; o_empty := EF (u "EmptySet") []; o_half := EQ (Q2Qc (1 # 2)); o_E := EE;
  o_number := ex_number;
  o_percent := fun v => match v with EQ q => Ret (EQ (Qcdiv q (Q2Qc 100))) | _ => Raise TypeError end;
  o_is_Matrix := ex_is_matrix;
  o_is_Add := fun v => match v with EAdd (x :: l) => forallb (fun y => negb (ex_is_matrix y)) (x :: l) | _ => false end;
  o_is_MatAdd := fun v => match v with EMatAdd l => existsb ex_is_matrix l | _ => false end;
  o_is_Mul := fun v => match v with EMul (x :: l) => forallb (fun y => negb (ex_is_matrix y)) (x :: l) | _ => false end;
  o_is_MatMul := fun v => match v with EMatMul l => existsb ex_is_matrix l | _ => false end;
  o_args := fun v => match v with EAdd l | EMul l | EMatAdd l | EMatMul l => l | EPow a b => [a; b] | EF _ l => l | _ => [] end;
  o_number_class := fun v => match v with EQ _ => true | _ => false end;
  o_neg := fun v => match v with EQ q => Ret (EQ (Qcopp q)) | _ => Ret (EMul [EQ (Q2Qc (-1)); v]) end;
  o_doit := fun v => Ret v;
  o_Add := fun l => Ret (EAdd l); o_Mul := fun l => Ret (EMul l);
  o_MatAdd := fun l => Ret (EMatAdd l); o_MatMul := fun l => Ret (EMatMul l);
  o_Pow := fun a b => Ret (EPow a b);
  o_recip := fun v => Ret (EPow v (EQ (Q2Qc (-1))));
  o_Derivative := fun e w => match e with LV e => Ret (EF (u "Derivative") [e; w]) | _ => Raise TypeError end;
  o_matrix := fun rows => match as_rows rows with Some r => Ret (EMat r) | None => Raise TypeError end;
  o_det_subs := fun m _ => Ret (LV (EF (u "det") [m]));
  o_call := ex_call;
  o_apply := fun f l => match as_ex l with Some l => Ret (LV (EF f l)) | None => Raise TypeError end;
  o_truthy := ex_truthy;
  o_is_minus_one := fun v => Ret (match v with LV (EQ q) => Qc_eq_bool q (Q2Qc (-1)) | _ => false end);
  o_first_symbol := fun v => Ret (match v with LV (ES s) => Some (ES s) | _ => None end);
  o_subs := fun e a b => match as_ex [e; a; b] with Some l => Ret (LV (EF (u "subs") l)) | None => Raise TypeError end;
  o_transpose := fun v => match v with LV v => if ex_is_matrix v then Ret (LV (EMatT v)) else Raise AttributeError | _ => Raise AttributeError end;
  o_integral_var := fun _ _ => Ret None;
  o_md5 := fun s => u "_" ++ s;
  o_parse_expr := fun s => Ret (ES s);
  o_rel := fun op a b => match as_ex [a; b] with Some l => Ret (LV (EF (u "relation") l)) | None => Raise TypeError end;
  o_pow_exp_args := fun v => match v with EPow _ (EMul l) => Some l | EPow _ _ => Some [] | _ => None end;
  o_matrix_symbol := fun v n m => match v with LV (ES s) => Ret (EMatSym s n m) | _ => Raise TypeError end;
  o_shape := fun v => match v with EMatSym _ n m => Ret (n, m) | _ => Raise TypeError end;
  o_str := fun v => match v with LV (ES s) => s | _ => [] end;
  o_same := fun a b => match a, b with ES x, ES y => str_eqb x y | _, _ => false end;
  o_latex := fun v => Ret (match v with LV (EQ q) => if Qc_eq_bool q (Q2Qc (1 # 2)) then u "\frac{1}{2}" else u "0" | _ => u "x" end);
  o_simplified := fun v _ => Ret v
|}.

Lemma digits_dot a : Forall ascii_digit a -> at_dot a = (a, None).
Proof.
  induction 1 as [|c a Hc Fa IH]; [reflexivity|]. cbn [at_dot]. unfold ascii_digit in Hc.
  destruct (N.eqb_spec c 46); [lia|]. rewrite IH. reflexivity.
Qed.
Lemma digits_dot_more a b : Forall ascii_digit a -> at_dot (a ++ [46%N] ++ b) = (a, Some b).
Proof.
  induction 1 as [|c a Hc Fa IH]; [reflexivity|]. cbn [app at_dot]. unfold ascii_digit in Hc.
  destruct (N.eqb_spec c 46); [lia|]. cbn [app] in IH. rewrite IH. reflexivity.
Qed.
Lemma digits_all a : Forall ascii_digit a -> forallb (fun c => N.leb 48 c && N.leb c 57) a = true.
Proof.
  intro Fa. apply forallb_forall. intros c Hc. rewrite Forall_forall in Fa. specialize (Fa c Hc). unfold ascii_digit in Fa.
  apply andb_true_intro. split; apply N.leb_le; lia.
Qed.
Lemma ex_number_value s q : decimal s q -> ex_number s = Ret (EQ (Q2Qc q)).
Proof.
  intros [l Fl N|a b Fa Fb N]; unfold ex_number.
  - rewrite (digits_dot l Fl), (digits_all l Fl). reflexivity.
  - rewrite (digits_dot_more a b Fa), digits_all by (apply Forall_app; auto). reflexivity.
Qed.
Lemma all_scalars parse l : forallb (fun y => negb (ex_is_matrix y)) l = true -> Forall (scalar ex (ESympy parse)) l.
Proof.
  intro H. apply Forall_forall. intros x Hx. rewrite forallb_forall in H. specialize (H x Hx). unfold scalar. cbn [o_is_Matrix ESympy].
  destruct (ex_is_matrix x); [discriminate|reflexivity].
Qed.

Lemma plain_call f l : str_eqb f (u "rows") = false -> str_eqb f (u "eigenvals") = false ->
  ex_call f l = match as_ex l with Some l => Ret (LV (EF f l)) | None => Raise TypeError end.
Proof. intros H1 H2. unfold ex_call. rewrite H1, H2. reflexivity. Qed.
Lemma fns1_plain f : In f fns1 -> str_eqb f (u "rows") = false /\ str_eqb f (u "eigenvals") = false.
Proof.
  assert (H : forallb (fun f => negb (str_eqb f (u "rows")) && negb (str_eqb f (u "eigenvals"))) fns1 = true) by (vm_compute; reflexivity).
  intro Hf. rewrite forallb_forall in H. specialize (H f Hf). apply andb_true_iff in H as [H1 H2].
  split; [destruct (str_eqb f (u "rows"))|destruct (str_eqb f (u "eigenvals"))]; auto; discriminate.
Qed.
Lemma fns2_plain f : In f fns2 -> str_eqb f (u "rows") = false /\ str_eqb f (u "eigenvals") = false.
Proof.
  assert (H : forallb (fun f => negb (str_eqb f (u "rows")) && negb (str_eqb f (u "eigenvals"))) fns2 = true) by (vm_compute; reflexivity).
  intro Hf. rewrite forallb_forall in H. specialize (H f Hf). apply andb_true_iff in H as [H1 H2].
  split; [destruct (str_eqb f (u "rows"))|destruct (str_eqb f (u "eigenvals"))]; auto; discriminate.
Qed.

Theorem ESympy_faithful parse rho values : (forall x v, In (x, PSym v) values -> ex_is_matrix v = false) ->
  faithful QcArith ex (den rho) rho values (o_md5 _ (ESympy parse)) (ESympy parse).
Proof.
  intro HV. constructor; intros; try (split; [reflexivity|reflexivity]); try reflexivity.
  - exists (EQ (Q2Qc q)). split; [apply ex_number_value; assumption|]. split; [split; reflexivity|reflexivity].
  - destruct v; cbn in H0; try discriminate. destruct H as [_ <-]. eexists; split; [reflexivity|]. split; reflexivity.
  - eexists; split; [reflexivity|]. split; [reflexivity|]. apply den_add.
  - destruct v as [| | | | | |[|x l]| | | | | | | |]; try discriminate H0. split; [apply den_add|]. split; [apply all_scalars; exact H0|discriminate].
  - eexists; split; [reflexivity|]. split; [reflexivity|]. apply den_mul.
  - destruct v as [| | | | | | |[|x l]| | | | | | |]; try discriminate H0. split; [apply den_mul|]. split; [apply all_scalars; exact H0|discriminate].
  - destruct v; cbn in H0; try discriminate. destruct H as [_ <-]. eexists; split; [reflexivity|]. split; [split; reflexivity|reflexivity].
  - destruct H as [_ <-], H0 as [_ <-]. eexists; split; [reflexivity|]. split; reflexivity.
  - destruct H as [_ <-]. eexists; split; [reflexivity|]. split; [reflexivity|]. cbn [den].
    rewrite qc_power_minus_one. cbn [div QcArith of_Q]. unfold Qcdiv. change (Q2Qc 1) with (1%Qc). ring.
  - destruct H0 as [_ <-]. destruct (fns1_plain f H) as [H1 H2]. cbn [o_call ESympy]. rewrite plain_call by assumption.
    eexists; split; [reflexivity|]. split; reflexivity.
  - destruct H0 as [_ <-], H1 as [_ <-]. destruct (fns2_plain f H) as [H1 H2]. cbn [o_call ESympy]. rewrite plain_call by assumption.
    eexists; split; [reflexivity|]. split; reflexivity.
  - destruct H as [_ <-]. eexists; split; [reflexivity|]. split; reflexivity.
  - eexists; split; [reflexivity|]. split; reflexivity.
  - destruct H as [_ <-]. eexists; split; [reflexivity|]. split.
    + destruct v; try discriminate. intro E. apply Qc_eq_bool_correct in E. exact E.
    + destruct v; try discriminate. intros _ E. cbn in E. subst q. vm_compute. reflexivity.
  - destruct H as [_ <-]. eexists; split; [reflexivity|].
    destruct v; try discriminate. intro E. cbn [den of_Q QcArith]. apply negb_false_iff, Qc_eq_bool_correct in E. exact E.
  - eapply HV; eassumption.
Qed.

Theorem ESympy_matrices parse : matrices (ESympy parse).
Proof.
  constructor.
  - intros rows m H. cbn in H. destruct (as_rows rows); [|discriminate]. injection H as <-. reflexivity.
  - intros l m _ H. injection H as <-. reflexivity.
  - intros l m E H. injection H as <-. split; [reflexivity|exact E].
  - intros v w E H. cbn in E, H. rewrite E in H. injection H as <-. eauto.
  - intros v w E H. injection H as <-. exact E.
  - intros v _ E. destruct v; try discriminate. exact E.
  - intros v _ E. destruct v; try discriminate. exact E.
Qed.

(** Parsers given by a table *)
Definition table (l : list (string * mtree)) (s : pystr) : res mtree :=
  match find (fun p => str_eqb (u (fst p)) s) l with Some p => Ret (snd p) | None => Raise (ExcOther 3) end.
Definition expr (t : tree) : mtree := MRel (RExpr t).
Definition letter (c : string) : tree := TSymbol (NLetter (u c)) None None.
Definition digit (c : string) : tree := TNumber (u c).
