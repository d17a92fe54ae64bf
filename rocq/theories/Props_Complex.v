(** Property C123: complex numbers, from their text to the engine. *)
From Coq Require Import String List NArith ZArith Bool Lia Permutation.
From Verif Require Import PyStr NumTheory Regex Normalize Monad MonadTheory Split SplitTheory Eval Interval IntervalEval Arith LatexForm TypeEval Complex Demo.
Import ListNotations.
Local Open Scope N_scope.
Local Ltac vm := vm_compute; reflexivity.

(** ** C123 *)
Theorem C123_complex {St V S : Type} (IS : ISympy St V S) cmp ints iter iter_ok simpl lhs n c1 c2 unit1 unit2 st :
  cx_wf c1 -> cx_wf c2 -> In unit1 units -> In unit2 units ->
  is_equiv_complex (with_intervals IS cmp ints iter iter_ok simpl lhs) n (cx_text unit1 c1) (cx_text unit2 c2) st =
  are_equal_under_sympy (with_intervals IS cmp ints iter iter_ok simpl lhs) (cx_text (u "I") c1) (cx_text (u "I") c2) st.
Proof. exact (complex_verdict IS cmp ints iter iter_ok simpl lhs n c1 c2 unit1 unit2 st). Qed.
Print Assumptions C123_complex.
Theorem C123_hint {St V S : Type} (IS : ISympy St V S) cmp ints iter iter_ok simpl lhs n c1 c2 unit1 unit2 st :
  cx_wf c1 -> cx_wf c2 -> In unit1 units -> In unit2 units ->
  is_equiv_type (with_intervals IS cmp ints iter iter_ok simpl lhs) n (cx_text unit1 c1) (cx_text unit2 c2) (Some (u "Complex")) st =
  match are_equal_under_sympy (with_intervals IS cmp ints iter iter_ok simpl lhs) (cx_text (u "I") c1) (cx_text (u "I") c2) st with
  | (Ret true, st') => (Ret true, st')
  | (_, st') => is_equiv (with_intervals IS cmp ints iter iter_ok simpl lhs) n (Some (cx_text unit1 c1)) (Some (cx_text unit2 c2)) st'
  end.
Proof. exact (complex_hint IS cmp ints iter iter_ok simpl lhs n c1 c2 unit1 unit2 st). Qed.
Print Assumptions C123_hint.
Theorem C123_broken W n s1 s2 a b st : normalize W (str_to_complex s1) = NStr a -> normalize W (str_to_complex s2) = NStr b ->
  let a' := replace (u "\sqrt{-1}") (u "I") a in let b' := replace (u "\sqrt{-1}") (u "I") b in
  has_bracket a' = false -> balance a' <> 0%Z \/ balance b' <> 0%Z ->
  is_equiv_complex W n s1 s2 st = (Ret false, st).
Proof. exact (complex_broken W n s1 s2 a b st). Qed.
Print Assumptions C123_broken.
Definition c123 : cnum := Cx true (Dec (u "0") (u "5")) false (u "12").
Definition d123 : cnum := Ci true [].
Example C123_ex {St V S : Type} (IS : ISympy St V S) cmp ints iter iter_ok simpl lhs st :
  cx_wf c123 /\ cx_wf d123 /\
  is_equiv_complex (with_intervals IS cmp ints iter iter_ok simpl lhs) 3 (u "-0.5+12i") (u "-I") st =
  are_equal_under_sympy (with_intervals IS cmp ints iter iter_ok simpl lhs) (u "-0.5+12I") (u "-I") st.
Proof.
  assert (W1 : cx_wf c123) by (cbn; repeat split; try right; repeat constructor; try discriminate; vm_compute; intuition discriminate).
  split; [exact W1|]. split; [left; reflexivity|].
  exact (C123_complex IS cmp ints iter iter_ok simpl lhs 3 c123 d123 (u "i") (u "I") st W1 (or_introl eq_refl) (or_introl eq_refl) (or_intror (or_introl eq_refl))).
Qed.
Example C123_ex2 : is_equiv_complex counting_world 3 (u "1+2i") (u "(3i") O = (Ret false, O).
Proof. apply (C123_broken counting_world 3 _ _ (u "1+2\sqrt{-1}") (u "(3\sqrt{-1}")); [vm|vm|vm|]. right. vm_compute. discriminate. Qed.
