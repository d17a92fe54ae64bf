(** Properties C13, C72 and C73. *)
From Coq Require Import String List NArith ZArith Bool Lia.
From Verif Require Import PyStr PyStrTheory Spec Normalize NormTheory Monad MonadTheory Split Eval EvalTheory2 Terminate NormAlg Deep Demo.
Import ListNotations.
Local Open Scope N_scope.

(** ** C13 *)
(** Whatever is put at the bottom of [n] nested calls is never reached. *)
Theorem C13_terminates W gt gv bot n st : prints_numbers W -> (400 * (length gt + length gv) < n)%nat ->
  Nat.iter n (is_equiv_body W) bot gt gv st = is_equiv W (S (400 * (length gt + length gv))) (Some gt) (Some gv) st.
Proof. exact (fun H Hn => bottom_unreached W gt gv bot n st H Hn). Qed.
Print Assumptions C13_terminates.
(** So a larger stack changes nothing. *)
Theorem C13_stable W gt gv n st : prints_numbers W -> (400 * (length gt + length gv) < n)%nat ->
  is_equiv W n (Some gt) (Some gv) st = is_equiv W (S (400 * (length gt + length gv))) (Some gt) (Some gv) st.
Proof. exact (fun H Hn => same_any_depth W gt gv n st H Hn). Qed.
Print Assumptions C13_stable.
(** The recursion equation of the source has exactly one solution. *)
Theorem C13_one_solution W F gt gv st : prints_numbers W -> (forall x y s, F x y s = is_equiv_body W F x y s) ->
  F gt gv st = is_equiv W (S (400 * (length gt + length gv))) (Some gt) (Some gv) st.
Proof. exact (one_solution W F gt gv st). Qed.
Print Assumptions C13_one_solution.
Theorem C13_solution W : prints_numbers W -> exists F, forall x y s, F x y s = is_equiv_body W F x y s.
Proof. exact (fun H => ex_intro _ _ (solution_exists W H)). Qed.
Print Assumptions C13_solution.
Example C13_ex1 : prints_numbers (table_world [(u "x", u "y")]).
Proof. intro x. left. reflexivity. Qed.
(** A bottom that would escape every handler is not reached. *)
Example C13_ex2 : fst (Nat.iter (401 * 26) (is_equiv_body (table_world [(u "x", u "y")])) (fun _ _ => raise (BaseExc 0)) (u "(1,(x,{3,4}))") (u "(1,(y,{4,3}))") tt) = Ret true.
Proof.
  rewrite (C13_terminates (table_world [(u "x", u "y")])); [vm_compute; reflexivity|exact C13_ex1|apply Nat.ltb_lt; vm_compute; reflexivity].
Qed.
(** Numbers printed by the engine *)
Example C13_ex3 : prints_numbers {| St := unit; int_str := fun x => if str_eqb x (u "007") then u "7" else if str_eqb x (u "1e-8") then u "-8 + E" else x;
  set_iter := nodup str_eq_dec; set_iter_ok := fun l => Permutation.Permutation_refl _; Iv := unit; interval_body := fun _ => raise ValueError;
  interval_compare := fun _ _ => ret true; equal_with_simplify := fun _ _ => ret false; parse_lhs := fun _ => ret tt |}.
Proof.
  intro x. cbn [int_str]. destruct (str_eqb x (u "007")) eqn:E1; [right; left|destruct (str_eqb x (u "1e-8")) eqn:E2; [right; right|left; reflexivity]].
  - intros c H. apply mem_cp_spec. revert c H. apply forallb_forall. vm_compute. reflexivity.
  - exists (u "-8 + "), []. apply str_eqb_eq in E2. subst x. repeat split; [|intros c []|right; left; reflexivity].
    intros c H. apply mem_cp_spec. revert c H. apply forallb_forall. vm_compute. reflexivity.
Qed.

(** ** C72 *)
Theorem C72_fixed ints s : algebraic s -> string_normalize ints s = NStr s.
Proof. exact (algebra_fixed ints s). Qed.
Print Assumptions C72_fixed.
Theorem C72_engine_decides W n s1 s2 st : atomic s1 -> atomic s2 -> s1 <> s2 ->
  is_equiv W (S n) (Some s1) (Some s2) st = are_equal_under_sympy W s1 s2 st.
Proof. exact (atomic_decided W n s1 s2 st). Qed.
Print Assumptions C72_engine_decides.
Local Ltac chars := intros c H; apply mem_cp_spec; revert c H; apply forallb_forall; vm_compute; reflexivity.
Example C72_ex1 : string_normalize (fun x => x) (u "(x+1)^2=[a,1/2)") = NStr (u "(x+1)^2=[a,1/2)").
Proof. apply C72_fixed. split; [chars|]. exists 120. split; apply mem_cp_spec; reflexivity. Qed.
Example C72_ex2 : fst (is_equiv (table_world [(u "x+1", u "1+x")]) 1 (Some (u "x+1")) (Some (u "1+x")) tt) = Ret true.
Proof.
  rewrite C72_engine_decides; [vm_compute; reflexivity| | |discriminate];
    (split; [split; [chars|exists 120; split; apply mem_cp_spec; reflexivity]|intros c H Hc; apply mem_cp_spec in H, Hc; revert H Hc]).
  - intros H Hc. apply mem_cp_spec in H. destruct H as [<-|[<-|[<-|[]]]]; discriminate.
  - intros H Hc. apply mem_cp_spec in H. destruct H as [<-|[<-|[<-|[]]]]; discriminate.
Qed.

(** ** C73 *)
(** Nested [k] deep, equal answers are accepted exactly when the stack has room for more than [k] calls. *)
Theorem C73_depth_needed W : pure_to (are_equal_under_sympy W (u "x") (u "w")) true ->
  (forall k, not_intervals W (nest k (u "x")) (nest k (u "w"))) ->
  forall n k st, fst (is_equiv W (S n) (Some (nest k (u "x"))) (Some (nest k (u "w"))) st) = Ret (Nat.leb k n).
Proof. exact (depth_needed W). Qed.
Print Assumptions C73_depth_needed.
Example C73_ex1 : nest 3 (u "x") = u "(((x,z),z),z)".
Proof. reflexivity. Qed.
Example C73_ex2 : fst (is_equiv (table_world [(u "x", u "w")]) 200 (Some (nest 200 (u "x"))) (Some (nest 200 (u "w"))) tt) = Ret false /\
  fst (is_equiv (table_world [(u "x", u "w")]) 201 (Some (nest 200 (u "x"))) (Some (nest 200 (u "w"))) tt) = Ret true.
Proof.
  assert (H : forall n, fst (is_equiv (table_world [(u "x", u "w")]) (S n) (Some (nest 200 (u "x"))) (Some (nest 200 (u "w"))) tt) = Ret (Nat.leb 200 n)).
  { intro n. apply C73_depth_needed; [intro st; reflexivity|]. intros k _. exists false. intro st. reflexivity. }
  split; apply H.
Qed.
