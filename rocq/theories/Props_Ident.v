(** Properties C96-C98: identities between written expressions. *)
From Coq Require Import String List NArith ZArith QArith Qcanon Bool Lia Permutation.
From Verif Require Import PyStr NumTheory Normalize Monad MonadTheory Split Eval Interval IntervalEval L2S L2SValue DemoL2S Grammar
  Parser ParserNum Arith LatexForm Answer Pipeline Pair Identity DemoPipe DemoIdent.
Import ListNotations.
Local Close Scope Qc_scope. Local Close Scope Q_scope. Local Open Scope N_scope.
Local Ltac vm := vm_compute; reflexivity.
Local Ltac written_wf := cbn; repeat split; try (unfold symbols, letters, greeks; cbn; tauto); repeat constructor; try discriminate.
Local Ltac plain_ok := cbn; repeat split; try discriminate; try (right; eexists; split; [reflexivity|vm_compute; tauto]); try (left; vm_compute; tauto); auto.

(** ** C96 *)
Theorem C96_identity {V St E Ob Sym Num A V' S : Type} (O : LSympy V) depth (emb : lv V -> pyval E Ob) (SP : Sympy St E Ob Sym Num) expr number drawn real defined
  (K : arithmetic A) den occ (IS : ISympy (globals V * St) V' S) cmp ints iter iter_ok lhs n m k e1 e2 s1 s2 o st :
  (forall rho, faithful K V (den rho) rho [] (o_md5 _ O) O) -> (forall s t, parse_text s = Found t -> o_parse _ O s = Ret t) ->
  symbolic SP expr number drawn real defined ->
  (forall v f o, (forall rho, worth V (den rho) O v (f rho)) -> (forall x, occ x v = o x) -> expr (emb (LV v)) f o) ->
  depth = Datatypes.S n -> answer ints s1 e1 -> answer ints s2 e2 -> has_symbols O depth occ (tight e1) o -> has_symbols O depth occ (tight e2) o ->
  (exists x, o x = true /\ x <> u "i") ->
  (forall rho, (forall x, exists d, drawn d /\ rho x = real d) -> value K rho e1 = value K rho e2 /\ defined (value K rho e1)) -> unset st ->
  fst (is_equiv (with_intervals IS cmp ints iter iter_ok (are_equal_with_simplify (joined O depth emb SP) (Datatypes.S m)) lhs) (Datatypes.S k) (Some s1) (Some s2) st) = Ret true.
Proof.
  intros F HP Y HE. exact (identity_verdict O depth emb SP expr number drawn real defined K den occ F HP Y HE IS cmp ints iter iter_ok lhs n m k e1 e2 s1 s2 o st).
Qed.
Print Assumptions C96_identity.
Theorem C96_symbols {V A} (O : LSympy V) (K : arithmetic A) den rho occ n e :
  (forall x, faithful (pair_arith K OrArith) V (fun v => (den v, occ x v)) (fun y => (rho y, str_eqb y x)) [] (o_md5 _ O) O) ->
  (forall s t, parse_text s = Found t -> o_parse _ O s = Ret t) -> wf e -> has_symbols O (Datatypes.S n) occ (tight e) (fun x => occurs x e).
Proof. intros F HP W. exact (symbols_kept O K den rho occ F HP n [] e (or_introl eq_refl) W). Qed.
Print Assumptions C96_symbols.
(* in the back end of exact evaluation at random integers between 1 and 10 *)
Definition start96 : globals ex * list N := (fresh, [4; 16; 2; 8]).
Lemma C96_demo {V' S} (IS : ISympy (globals ex * list N) V' S) cmp ints iter iter_ok lhs e1 e2 s1 s2 :
  answer ints s1 e1 -> answer ints s2 e2 -> (forall x, occurs x e1 = occurs x e2) -> (exists x, occurs x e1 = true /\ x <> u "i") ->
  (forall rho, (forall x, drawn (rho x)) -> value QcArith rho e1 = value QcArith rho e2) ->
  fst (is_equiv (with_intervals IS cmp ints iter iter_ok (xwhole 3 3) lhs) 3 (Some s1) (Some s2) start96) = Ret true.
Proof.
  intros A1 A2 Ho Hx Hv.
  apply (C96_identity DO 4 xemb XSympy xexpr xnumber drawn xreal xdefined QcArith DemoL2S.den occ IS cmp ints iter iter_ok lhs 3 3 2 e1 e2 s1 s2 (fun x => occurs x e1)); try assumption.
  - intro rho. apply ESympy_faithful. intros x v [].
  - exact demo_parse.
  - exact xsymbolic.
  - exact (xemb_expr the_parse).
  - reflexivity.
  - apply (xsymbols 3), A1.
  - intros g g' v U Ev x. rewrite Ho. exact (xsymbols 3 e2 (proj1 A2) g g' v U Ev x).
  - intros rho R. split; [|exact I]. apply Hv. intro x. destruct (R x) as (d & D & ->). exact D.
  - reflexivity.
Qed.
Definition x96 : arith := Sym (u "x").
Definition quot96 : arith := Frac (Bin Plus (Pow x96 (Num (u "2"))) x96) x96.
Definition sum96 : arith := Bin Plus x96 (Num (u "1")).
Lemma drawn_nonzero n : drawn n -> n <> Q2Qc 0.
Proof.
  intros (z & L & ->) H. apply (f_equal this) in H. assert (E : (inject_Z z == 0)%Q) by (rewrite <- (Qred_correct (inject_Z z)), <- (Qred_correct 0); cbn [this Q2Qc] in H; rewrite H; reflexivity).
  unfold Qeq in E. cbn in E. lia.
Qed.
Example C96_ex : tight quot96 = u "\frac{x^{2}+x}{x}" /\ tight sum96 = u "x+1" /\ answer (fun s => s) (u "\frac{x^{2}+x}{x}") quot96 /\ answer (fun s => s) (u "x+1") sum96 /\
  forall V' S (IS : ISympy (globals ex * list N) V' S) cmp iter iter_ok lhs,
  fst (is_equiv (with_intervals IS cmp (fun s => s) iter iter_ok (xwhole 3 3) lhs) 3 (Some (u "\frac{x^{2}+x}{x}")) (Some (u "x+1")) start96) = Ret true.
Proof.
  assert (A1 : answer (fun s => s) (u "\frac{x^{2}+x}{x}") quot96).
  { split; [written_wf|]. split; [plain_ok|]. split; vm. }
  assert (A2 : answer (fun s => s) (u "x+1") sum96).
  { split; [written_wf|]. split; [plain_ok|]. split; vm. }
  split; [vm|]. split; [vm|]. split; [exact A1|]. split; [exact A2|]. intros V' S IS cmp iter iter_ok lhs. apply (C96_demo IS cmp _ iter iter_ok lhs quot96 sum96 _ _ A1 A2).
  - intro x. cbn [occurs quot96 sum96 x96]. destruct (str_eqb (sym_name (u "x")) x); reflexivity.
  - exists (u "x"). split; [vm|vm_compute; discriminate].
  - intros rho D. specialize (D (u "x")). apply drawn_nonzero in D. cbn. unfold qc_power.
    change (u "x") with [120] in D. set (r := rho [120]) in *. clearbody r. change (Q2Qc (inject_Z 1)) with 1%Qc. change (Pos.to_nat 2) with 2%nat. cbn [Qcpower]. field. exact D.
Qed.

(** ** C97 *)
(* |x| and x *)
Theorem C97_identities_refuted : exists e1 e2 s1 s2 rho, answer (fun s => s) s1 e1 /\ answer (fun s => s) s2 e2 /\ value QcArith rho e1 <> value QcArith rho e2 /\
  forall V' S (IS : ISympy (globals ex * list N) V' S) cmp iter iter_ok lhs,
  fst (is_equiv (with_intervals IS cmp (fun s => s) iter iter_ok (xwhole 3 3) lhs) 3 (Some s1) (Some s2) start96) = Ret true.
Proof.
  exists (Abs x96), x96, (u "\left|x\right|"), (u "x"), (fun _ => Q2Qc (-2)).
  assert (A1 : answer (fun s => s) (u "\left|x\right|") (Abs x96)).
  { split; [written_wf|]. split; [plain_ok|]. split; vm. }
  assert (A2 : answer (fun s => s) (u "x") x96).
  { split; [written_wf|]. split; [plain_ok|]. split; vm. }
  split; [exact A1|]. split; [exact A2|]. split; [vm_compute; discriminate|]. intros V' S IS cmp iter iter_ok lhs. apply (C96_demo IS cmp _ iter iter_ok lhs _ _ _ _ A1 A2).
  - reflexivity.
  - exists (u "x"). split; [vm|vm_compute; discriminate].
  - intros rho D. specialize (D (u "x")). cbn. change (u "x") with [120] in D. set (r := rho [120]) in *. clearbody r. destruct D as (z & L & ->).
    unfold qc_fn. destruct (Qclt_le_dec _ _) as [C|C]; [exfalso|reflexivity]. unfold Qclt in C. cbn [this Q2Qc] in C. rewrite !Qred_correct in C. unfold Qlt in C. cbn in C. lia.
Qed.
Print Assumptions C97_identities_refuted.

(** ** C98 *)
Theorem C98_symbols {V St E Ob Sym Num A V' S : Type} (O : LSympy V) depth (emb : lv V -> pyval E Ob) (SP : Sympy St E Ob Sym Num) expr number drawn real defined
  (K : arithmetic A) den occ (IS : ISympy (globals V * St) V' S) cmp ints iter iter_ok lhs n m k e1 e2 s1 s2 o1 o2 st :
  (forall rho, faithful K V (den rho) rho [] (o_md5 _ O) O) -> (forall s t, parse_text s = Found t -> o_parse _ O s = Ret t) ->
  symbolic SP expr number drawn real defined ->
  (forall v f o, (forall rho, worth V (den rho) O v (f rho)) -> (forall x, occ x v = o x) -> expr (emb (LV v)) f o) ->
  sound SP expr (sub K) -> comparable SP expr ->
  depth = Datatypes.S n -> answer ints s1 e1 -> answer ints s2 e2 -> has_symbols O depth occ (tight e1) o1 -> has_symbols O depth occ (tight e2) o2 ->
  python_same SP expr (tight e1) (fun rho => value K rho e1) o1 -> python_same SP expr (tight e2) (fun rho => value K rho e2) o2 ->
  (exists x, o1 x <> o2 x) -> (exists x, o1 x = true /\ x <> u "i") -> (exists x, o2 x = true /\ x <> u "i") ->
  (exists rho, value K rho e1 <> value K rho e2) -> (forall c, exists rho, sub K (value K rho e1) (value K rho e2) <> c) -> unset st ->
  fst (is_equiv (with_intervals IS cmp ints iter iter_ok (are_equal_with_simplify (joined O depth emb SP) (Datatypes.S m)) lhs) (Datatypes.S k) (Some s1) (Some s2) st) = Ret false.
Proof.
  intros F HP Y HE Z C D A1 A2 H1 H2 P1 P2 Hd Hx Hy N1 N2.
  exact (symbols_verdict O depth emb SP expr number drawn real defined K den occ F HP Y HE IS cmp ints iter iter_ok lhs n m k e1 e2 s1 s2 o1 o2 st Z C D A1 A2 H1 H2 P1 P2 Hd Hx Hy (conj N1 N2)).
Qed.
Print Assumptions C98_symbols.
Definition y98 : arith := Sym (u "y").
Definition sum98 : arith := Bin Plus x96 y98.
Example C98_ex : answer (fun s => s) (u "x+y") sum98 /\
  forall V' S (IS : ISympy (globals ex * list N) V' S) cmp iter iter_ok lhs,
  fst (is_equiv (with_intervals IS cmp (fun s => s) iter iter_ok (xwhole 3 3) lhs) 3 (Some (u "x+y")) (Some (u "x+1")) start96) = Ret false.
Proof.
  assert (A1 : answer (fun s => s) (u "x+y") sum98).
  { split; [written_wf|]. split; [plain_ok|]. split; vm. }
  assert (A2 : answer (fun s => s) (u "x+1") sum96).
  { split; [written_wf|]. split; [plain_ok|]. split; vm. }
  split; [exact A1|]. intros V' S IS cmp iter iter_ok lhs.
  apply (C98_symbols DO 4 xemb XSympy xexpr xnumber drawn xreal xdefined QcArith DemoL2S.den occ IS cmp (fun s => s) iter iter_ok lhs 3 3 2 sum98 sum96 _ _ (fun x => occurs x sum98) (fun x => occurs x sum96)); try assumption.
  - intro rho. apply ESympy_faithful. intros x v [].
  - exact demo_parse.
  - exact xsymbolic.
  - exact (xemb_expr the_parse).
  - exact xsound.
  - exact xcomparable.
  - reflexivity.
  - apply (xsymbols 3), A1.
  - apply (xsymbols 3), A2.
  - left. intro st. eexists. reflexivity.
  - left. intro st. eexists. reflexivity.
  - exists (u "y"). vm_compute. discriminate.
  - exists (u "x"). split; [vm|vm_compute; discriminate].
  - exists (u "x"). split; [vm|vm_compute; discriminate].
  - exists (fun _ => Q2Qc 2). vm_compute. discriminate.
  - intro c. destruct (Qc_eq_dec c (Q2Qc 1)) as [->|N]; [exists (fun _ => Q2Qc 0); vm_compute; discriminate|].
    exists (fun _ => Q2Qc 2). intro H. apply N. rewrite <- H. vm_compute. reflexivity.
  - reflexivity.
Qed.
