(** Properties C99-C100: what the normaliser forgets. *)
From Coq Require Import String List NArith ZArith QArith Qcanon Bool Lia.
From Verif Require Import PyStr PyStrTheory NumTheory Normalize Monad Eval EvalTheory L2S L2SValue DemoL2S Grammar Parser Arith LatexForm Pair Answer Pipeline DemoPipe CaseFold.
Import ListNotations.
Local Close Scope Qc_scope. Local Close Scope Q_scope. Local Open Scope N_scope.
Local Ltac vm := vm_compute; reflexivity.
Local Ltac written_wf := cbn; repeat split; try (unfold symbols, letters, greeks; cbn; tauto); repeat constructor; try discriminate.
Local Ltac printable_ok := cbn; repeat split; try discriminate; try (right; eexists; split; [reflexivity|vm_compute; tauto]); try (left; vm_compute; tauto); auto.

(** ** C99 *)
Theorem C99_lower ints e s : wf e -> occurs (u "D") e = false -> printable e -> literal e = false -> written e s -> answer ints s (low e).
Proof. exact (reads_small ints e s). Qed.
Print Assumptions C99_lower.
Theorem C99_case W n e1 e2 s1 s2 st :
  wf e1 -> wf e2 -> occurs (u "D") e1 = false -> occurs (u "D") e2 = false -> printable e1 -> printable e2 -> literal e1 = false -> literal e2 = false ->
  written e1 s1 -> written e2 s2 -> lower (latex e1) = lower (latex e2) -> is_equiv W (S n) (Some s1) (Some s2) st = (Ret true, st).
Proof. exact (case_forgotten W n e1 e2 s1 s2 st). Qed.
Print Assumptions C99_case.
(* the difference of a capital and a small letter, and nought *)
Definition diff99 : arith := Bin Minus (Sym (u "R")) (Sym (u "r")).
Definition null99 : arith := Bin Minus (Sym (u "r")) (Sym (u "r")).
Lemma C99_met : wf diff99 /\ printable diff99 /\ occurs (u "D") diff99 = false /\ wf null99 /\ printable null99 /\ occurs (u "D") null99 = false.
Proof. split; [written_wf|]. split; [printable_ok|]. split; [vm|]. split; [written_wf|]. split; [printable_ok|vm]. Qed.
Example C99_ex W n st : is_equiv W (S n) (Some (u "R-r")) (Some (u "r-r")) st = (Ret true, st).
Proof.
  destruct C99_met as (H1 & H2 & H3 & H4 & H5 & H6).
  apply (C99_case W n diff99 null99 (u "R-r") (u "r-r") st H1 H4 H3 H6 H2 H5 eq_refl eq_refl (W_latex diff99) (W_latex null99)). vm.
Qed.
Theorem C99_case_refuted : exists e1 e2 s1 s2 rho, wf e1 /\ wf e2 /\ written e1 s1 /\ written e2 s2 /\ value QcArith rho e1 <> value QcArith rho e2 /\
  forall W n st, is_equiv W (S n) (Some s1) (Some s2) st = (Ret true, st).
Proof.
  destruct C99_met as (H1 & H2 & H3 & H4 & H5 & H6).
  exists diff99, null99, (u "R-r"), (u "r-r"), (fun x => if str_eqb x (u "R") then Q2Qc 5 else Q2Qc 3).
  split; [exact H1|]. split; [exact H4|]. split; [exact (W_latex diff99)|]. split; [exact (W_latex null99)|]. split; [vm_compute; discriminate|].
  intros W n st. exact (C99_ex W n st).
Qed.
Print Assumptions C99_case_refuted.

(** ** C100 *)
Definition reading100 (s : pystr) : res (lv ex) := fst (latex2sympy DO 4 s [] fresh).
(* sin(hx) and sinh(x) *)
Theorem C100_spaces_refuted : exists s1 s2, reading100 s1 = Ret (LV (EF (u "sin") [EMul [ES (u "h"); ES (u "x")]])) /\ reading100 s2 = Ret (LV (EF (u "sinh") [ES (u "x")])) /\
  forall W n st, is_equiv W (S n) (Some s1) (Some s2) st = (Ret true, st).
Proof.
  exists (u "\sin hx"), (u "\sinh x"). split; [vm|]. split; [vm|]. intros W n st. apply (is_equiv_same_norm W n _ _ (u "\sinhx")); vm.
Qed.
Print Assumptions C100_spaces_refuted.
(* x \le q loses its right side *)
Theorem C100_relation_refuted : exists s1 s2 v t1 t2, reading100 s1 = Ret v /\ reading100 s2 = Ret v /\
  (forall ints, string_normalize ints s1 = NStr t1 /\ string_normalize ints s2 = NStr t2) /\ reading100 t2 = Ret v /\ exists x, reading100 t1 = Raise x.
Proof.
  exists (u "x \le q"), (u "x \leq q"), (LV (EF (u "relation") [ES (u "x"); ES (u "q")])), (u "x\leq"), (u "x\leqq").
  split; [vm|]. split; [vm|]. split; [intro; split; vm|]. split; [vm|]. eexists. vm.
Qed.
Print Assumptions C100_relation_refuted.
