(** Properties C47-C49 of demo.py and example_tora_eval.py. *)
From Coq Require Import String List NArith ZArith QArith Bool.
From Verif Require Import PyStr Regex RegexTheory Monad Eval Tora ToraTheory Demo.
Import ListNotations.
Local Ltac vm := vm_compute; reflexivity.

(** ** C47 *)
Theorem C47_extract_boxed p x t : p <> [] -> ~ infix boxed x -> ~ infix boxed t -> ~ In 125%N t ->
  extract_boxed (p ++ u "\boxed{" ++ x ++ u "}" ++ t) = Some x.
Proof. exact (extract_boxed_ok p x t). Qed.
Print Assumptions C47_extract_boxed.
Theorem C47_no_box s : ~ infix (u "\boxed{") s -> extract_boxed s = None.
Proof. exact (extract_boxed_none s). Qed.
Print Assumptions C47_no_box.
(** Finding: a box at the very start is not seen. *)
Theorem C47_box_at_start y : ~ infix (u "\boxed{") y -> extract_boxed (u "\boxed{" ++ y) = None.
Proof. exact (extract_boxed_start y). Qed.
Print Assumptions C47_box_at_start.
(** Finding: an unclosed box loses its last character. *)
Theorem C47_unclosed p x c : p <> [] -> ~ infix (u "\boxed{") (x ++ [c]) -> ~ In 125%N (p ++ x ++ [c]) ->
  extract_boxed (p ++ u "\boxed{" ++ x ++ [c]) = Some x.
Proof. exact (extract_boxed_unclosed p x c). Qed.
Print Assumptions C47_unclosed.
Local Ltac noinf := intros (a & b & E); change (u "\boxed{") with boxed in E;
  repeat (destruct a as [|? a]; cbn in E; [discriminate E|first [discriminate E|injection E as _ E]]).
Local Ltac noin := cbn; intuition discriminate.
Example C47_ex1 : extract_boxed (u "so \boxed{\frac{1}{2}}.") = Some (u "\frac{1}{2}").
Proof. apply (C47_extract_boxed (u "so ") (u "\frac{1}{2}") (u ".")); [discriminate|noinf|noinf|noin]. Qed.
(** trailing text up to the last brace belongs to the extracted answer *)
Example C47_ex2 : extract_boxed (u "so \boxed{3} and {y}") = Some (u "3} and {y").
Proof. apply (C47_extract_boxed (u "so ") (u "3} and {y") []); [discriminate|noinf|noinf|noin]. Qed.
Example C47_ex3 : extract_boxed (u "\boxed{3}") = None.
Proof. apply (C47_box_at_start (u "3}")). noinf. Qed.
Example C47_ex4 : extract_boxed (u "so \boxed{123") = Some (u "12").
Proof. apply (C47_unclosed (u "so ") (u "12") 51%N); [discriminate|noinf|noin]. Qed.

(** ** C48 *)
Theorem C48_accepts W n l pred st st' :
  is_equiv_MATH W n (GList l) pred st = (Ret true, st') <->
  exists l1 g l2 st1, l = l1 ++ g :: l2 /\ rejected W n pred l1 st st1 /\ is_equiv W n (Some g) pred st1 = (Ret true, st').
Proof. exact (any_ground_true W n l pred st st'). Qed.
Print Assumptions C48_accepts.
Theorem C48_rejects W n l pred st st' :
  is_equiv_MATH W n (GList l) pred st = (Ret false, st') <-> rejected W n pred l st st'.
Proof. exact (any_ground_false W n l pred st st'). Qed.
Print Assumptions C48_rejects.
Theorem C48_any W n l pred (v : pystr -> bool) st :
  (forall g, In g l -> forall st', fst (is_equiv W n (Some g) pred st') = Ret (v g)) ->
  fst (is_equiv_MATH W n (GList l) pred st) = Ret (existsb v l).
Proof. exact (fun H => any_ground_pure W n l pred v H st). Qed.
Print Assumptions C48_any.
Example C48_ex : is_equiv_MATH (table_world [(u "a", u "b")]) 2 (GList [u "7"; u "a"; u "c"]) (Some (u "b")) tt = (Ret true, tt).
Proof.
  apply C48_accepts. exists [u "7"], (u "a"), [u "c"], tt. split; [reflexivity|]. split.
  - econstructor; [vm|constructor].
  - vm.
Qed.
Example C48_ex2 : is_equiv_MATH counting_world 2 (GList []) (Some (u "b")) O = (Ret false, O).
Proof. apply C48_rejects. constructor. Qed.

(** ** C49 *)
Theorem C49_accuracy W n v test tora :
  (forall a b st, fst (is_equiv_MATH W n a (Some b) st) = Ret (v a b)) ->
  Forall (well_formed test) tora -> List.length tora = List.length test -> tora <> [] ->
  exists bs, Forall2 (fun d b => b = true <-> accepted v test d) tora bs /\
    (forall st, fst (accuracy W n tora test st) = Ret (inject_Z (Z.of_nat (trues bs)) / inject_Z (Z.of_nat (List.length tora)))%Q) /\
    (0 <= inject_Z (Z.of_nat (trues bs)) / inject_Z (Z.of_nat (List.length tora)) <= 1)%Q.
Proof. exact (accuracy_spec W n v test tora). Qed.
Print Assumptions C49_accuracy.
(** A verdict function for the hypothesis: with a stateless back end there always is one. *)
Definition demo_world := table_world [].
Definition demo_verdict (a : ground) (b : pystr) : bool :=
  match fst (is_equiv_MATH demo_world 3 a (Some b) tt) with Ret r => r | Raise _ => false end.
Example C49_ex : exists q, fst (accuracy demo_world 3
    [ {| o_question := u "Q"; o_code := [u "x"; u "so \boxed{1}"] |}; {| o_question := u "Q"; o_code := [u "so \boxed{2}"] |} ]
    [ (u "Q", GStr (u "2")); (u "Q", GStr (u "1")) ] tt) = Ret q /\ (q == 1 # 2)%Q.
Proof.
  destruct (C49_accuracy demo_world 3 demo_verdict [ (u "Q", GStr (u "2")); (u "Q", GStr (u "1")) ]
    [ {| o_question := u "Q"; o_code := [u "x"; u "so \boxed{1}"] |}; {| o_question := u "Q"; o_code := [u "so \boxed{2}"] |} ]) as (bs & HF & HE & _).
  - intros a b []. unfold demo_verdict. destruct (MATH_returns demo_world 2 a b tt) as (r & ->); [|reflexivity].
    intros x y st' e H. discriminate H.
  - assert (A : annotation [ (u "Q", GStr (u "2")); (u "Q", GStr (u "1")) ] (u "Q") (GStr (u "1"))) by (apply q2a_spec; vm).
    repeat constructor; try discriminate; eexists; exact A.
  - reflexivity.
  - discriminate.
  - eexists. split; [vm|]. reflexivity.
Qed.
