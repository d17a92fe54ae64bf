(** Property C129: whole numbers of degrees (/repo/math_evaluation/core/latex_normalize.py:366-379). *)
From Coq Require Import String List NArith ZArith Bool Lia.
From Verif Require Import PyStr PyStrTheory Spec Regex Normalize NormTheory NormCirc Monad MonadTheory Eval EvalTheory EvalTheory2 Demo.
Import ListNotations.
Local Open Scope N_scope.
Local Ltac vm := vm_compute; reflexivity.

(** ** C129 *)
Theorem C129_degrees ints z s : (- 2 ^ 53 <= z <= 2 ^ 53)%Z -> In s degree_signs ->
  string_normalize ints (dec_Z z ++ s) = NSet [ints (dec_Z z); in_radians z].
Proof. exact (degrees_read ints z s). Qed.
Print Assumptions C129_degrees.
(** Accepted exactly for what the comparison accepts for the bare number or for the radians *)
Theorem C129_verdict W n z s b (v : pystr -> pystr -> bool) st : (- 2 ^ 53 <= z <= 2 ^ 53)%Z -> In s degree_signs ->
  ~ equal_up_to_padding is_space (dec_Z z ++ s) b ->
  (forall x y, x = int_str W (dec_Z z) \/ x = in_radians z -> reading_of y (string_normalize (int_str W) b) ->
               pure_to (is_latex_equiv W (is_equiv_str W n) x y) (v x y)) ->
  fst (is_equiv W (S n) (Some (dec_Z z ++ s)) (Some b) st) = Ret true <->
    exists y, reading_of y (string_normalize (int_str W) b) /\ (v (int_str W (dec_Z z)) y = true \/ v (in_radians z) y = true).
Proof. exact (degrees_verdict W n z s b v st). Qed.
Print Assumptions C129_verdict.
Example C129_ex : dec_Z (-30) ++ u "^{\circ}" = u "-30^{\circ}" /\ in_radians (-30) = u "-30/180*\pi" /\
  string_normalize (fun x => x) (u "-30^{\circ}") = NSet [u "-30"; u "-30/180*\pi"].
Proof. split; [vm|]. split; [vm|]. apply (C129_degrees (fun x => x) (-30) (u "^{\circ}")); [lia|vm_compute; tauto]. Qed.
Example C129_verdict_ex : fst (is_equiv (table_world [(u "180/180*\pi", u "x")]) 3 (Some (u "180^\circ")) (Some (u "x")) tt) = Ret true.
Proof.
  refine (proj2 (C129_verdict (table_world [(u "180/180*\pi", u "x")]) 2 180 (u "^\circ") (u "x") (fun x y => str_eqb x (u "180/180*\pi")) tt _ _ _ _) _).
  - lia.
  - vm_compute. tauto.
  - rewrite <- padding_iff. vm_compute. discriminate.
  - intros x y Hx Hy. replace (string_normalize (int_str (table_world [(u "180/180*\pi", u "x")])) (u "x")) with (NStr (u "x")) in Hy by vm. cbn in Hy. subst y. destruct Hx as [-> | ->]; intros []; vm.
  - exists (u "x"). split; [replace (string_normalize (int_str (table_world [(u "180/180*\pi", u "x")])) (u "x")) with (NStr (u "x")) by vm; reflexivity|]. right. vm.
Qed.
