(** Properties C86-C90 of the symbolic comparison (latex_parser.py), for every back end. *)
From Coq Require Import String List NArith ZArith QArith Bool Lia.
From Verif Require Import PyStr PyStrTheory Monad MonadTheory Parser ParserTheory ParserMore DemoSympy.
Import ListNotations.
Local Open Scope mon_scope.
Local Open Scope nat_scope.
Local Notation none := (fun _ : pystr => @None qval).
Local Notation Q0 := (QSympy none none).
Local Notation num q := (VExpr (QN false q) : qval).
Local Notation X := (VExpr (QV 0) : qval).
Local Notation Y := (VExpr (QV 1) : qval).
Local Notation pure := (fun _ => eq_refl).

(** ** C86 *)
Theorem C86_candidates St Ex Ob Sym Num (SP : Sympy St Ex Ob Sym Num) s l2s pl py (truthy : pyval Ex Ob -> bool) (eqv : pyval Ex Ob -> pyval Ex Ob -> bool) :
  outcome (op_latex2sympy _ _ _ _ _ SP s) l2s -> outcome (op_parse_latex _ _ _ _ _ SP s) pl ->
  outcome (op_parse_expr _ _ _ _ _ SP (replace (u "^") (u "**") s)) py ->
  (forall v, pure_to (op_truthy _ _ _ _ _ SP v) (truthy v)) -> (forall v w, pure_to (op_eq _ _ _ _ _ SP v w) (eqv v w)) ->
  exists cs, pure_to (sympy_parse SP s) cs /\
    candidates (fun v x => truthy x = true /\ eqv v x = true) (match l2s with Some x => Some x | None => pl end) py (parsed cs).
Proof. exact (candidates_of SP s l2s pl py truthy eqv). Qed.
Print Assumptions C86_candidates.
Definition triple (s : pystr) : option qval := Some (VTuple [num 1; num 2; num 3]).
Definition pair_ (s : pystr) : option qval := Some (VTuple [num 1; num 2]).
Definition qtruthy (v : qval) : bool := match v with VExpr (QN _ q) => negb (Qeq_bool q 0) | _ => true end.
Lemma qtruthy_run t t' v : pure_to (op_truthy _ _ _ _ _ (QSympy t t') v) (qtruthy v).
Proof. intro st. destruct v as [| | | | |[]| | |]; reflexivity. Qed.
Example C86_ex : exists cs, pure_to (sympy_parse (QSympy none triple) (u "1, 2, 3")) cs /\ parsed cs = [VList [num 1; num 2; num 3]].
Proof.
  destruct (C86_candidates _ _ _ _ _ (QSympy none triple) (u "1, 2, 3") None None (triple []) qtruthy veqb
    (fun st => ex_intro _ _ eq_refl) (fun st => ex_intro _ _ eq_refl) pure (qtruthy_run _ _) (fun _ _ => pure)) as (cs & P & C).
  exists cs. split; [exact P|]. inversion C as [| |p v H| |]; subst. inversion H as [l L|l L|w L]; subst; [reflexivity|cbn in L; lia|destruct (L _ eq_refl)].
Qed.
Example C86_ex2 : exists cs, pure_to (sympy_parse (QSympy none pair_) (u "1, 2")) cs /\ parsed cs = [VTuple [num 1; num 2]].
Proof.
  destruct (C86_candidates _ _ _ _ _ (QSympy none pair_) (u "1, 2") None None (pair_ []) qtruthy veqb
    (fun st => ex_intro _ _ eq_refl) (fun st => ex_intro _ _ eq_refl) pure (qtruthy_run _ _) (fun _ _ => pure)) as (cs & P & C).
  exists cs. split; [exact P|]. inversion C as [| |p v H| |]; subst. inversion H as [l L|l L|w L]; subst; [cbn in L; lia|reflexivity|destruct (L _ eq_refl)].
Qed.

(** ** C87: pairs that only Python's parser reads are never equal *)
Theorem C87_pairs_never_equal St Ex Ob Sym Num (SP : Sympy St Ex Ob Sym Num) n l v st :
  (exists e, fst (compare SP n (VTuple l) v st) = Raise e) /\ (exists e, fst (compare SP n v (VTuple l) st) = Raise e).
Proof. exact (pairs_never_equal SP n l v st). Qed.
Print Assumptions C87_pairs_never_equal.
Theorem C87_pair_texts_differ St Ex Ob Sym Num (SP : Sympy St Ex Ob Sym Num) n gt gv l1 l2 truthy eqv st : length l1 <= 2 -> length l2 <= 2 ->
  (forall v, pure_to (op_truthy _ _ _ _ _ SP v) (truthy v)) -> (forall v w, pure_to (op_eq _ _ _ _ _ SP v w) (eqv v w)) ->
  Forall (fun s => outcome (op_latex2sympy _ _ _ _ _ SP s) None /\ outcome (op_parse_latex _ _ _ _ _ SP s) None) [gt; gv] ->
  outcome (op_parse_expr _ _ _ _ _ SP (replace (u "^") (u "**") gt)) (Some (VTuple l1)) ->
  outcome (op_parse_expr _ _ _ _ _ SP (replace (u "^") (u "**") gv)) (Some (VTuple l2)) ->
  fst (are_equal_under_sympy_repo SP n gt gv st) = Ret false.
Proof. exact (pair_texts_differ SP n gt gv l1 l2 truthy eqv st). Qed.
Print Assumptions C87_pair_texts_differ.
Example C87_ex n st : fst (are_equal_under_sympy_repo (QSympy none pair_) n (u "1, 2") (u "1, 2") st) = Ret false.
Proof.
  apply (C87_pair_texts_differ _ _ _ _ _ (QSympy none pair_) n (u "1, 2") (u "1, 2") [num 1; num 2] [num 1; num 2] qtruthy veqb st);
    [apply le_n|apply le_n|apply qtruthy_run|intros v w s; reflexivity| |intro s; reflexivity|intro s; reflexivity].
  repeat constructor; intro s; eexists; reflexivity.
Qed.
(* three components are accepted *)
Example C87_ex2 : fst (are_equal_under_sympy_repo (QSympy none triple) 5 (u "1, 2, 3") (u "1, 2, 3") []) = Ret true.
Proof. vm_compute. reflexivity. Qed.

(** ** C88 *)
Theorem C88_stages St Ex Ob Sym Num (SP : Sympy St Ex Ob Sym Num) n e1 e2 f1 f2 x d r1 r2 :
  pure_to (op_has_I _ _ _ _ _ SP e1) false -> pure_to (op_has_I _ _ _ _ _ SP e2) false ->
  pure_to (op_free_symbols _ _ _ _ _ SP (VExpr e1)) f1 -> pure_to (op_free_symbols _ _ _ _ _ SP (VExpr e2)) f2 ->
  (forall s, op_sym_name _ _ _ _ _ SP s = u "i" -> f1 <> [s] /\ f2 <> [s]) ->
  pure_to (op_is_number _ _ _ _ _ SP (VExpr e1)) false -> pure_to (op_is_number _ _ _ _ _ SP (VExpr e2)) false ->
  outcome (op_expand_equal _ _ _ _ _ SP (VExpr e1) (VExpr e2)) x ->
  outcome (w <- op_sub _ _ _ _ _ SP (VExpr e1) (VExpr e2) ;; s <- sympy_simplify SP w ;; diff_equal SP (VExpr e1) s) d -> d <> Some None ->
  outcome (numerical_equal SP RandInt (VExpr e1) (VExpr e2)) (Some r1) -> outcome (numerical_equal SP Uniform (VExpr e1) (VExpr e2)) (Some r2) ->
  f1 <> [] -> f2 <> [] ->
  pure_to (compare SP (S n) (VExpr e1) (VExpr e2)) (said x || holds d || r1 || r2).
Proof. exact (stages SP n e1 e2 f1 f2 x d r1 r2). Qed.
Print Assumptions C88_stages.
(* x and y: no stage accepts *)
Example C88_ex : pure_to (compare Q0 5 X Y) false.
Proof.
  apply (C88_stages _ _ _ _ _ Q0 4 (QV 0) (QV 1) [0] [1] (Some false) (Some (Some false)) false false); try (intro st; reflexivity); try discriminate.
  intros s H. split; intros [= <-]; discriminate.
Qed.

(** ** C89 *)
Theorem C89_letter_i St Ex Ob Sym Num (SP : Sympy St Ex Ob Sym Num) n e1 e2 w1 w2 b1 b2 a1 c1 a2 c2 ta1 tc1 ta2 tc2 x y :
  pure_to (op_has_I _ _ _ _ _ SP e1) false -> pure_to (op_has_I _ _ _ _ _ SP e2) false ->
  with_i SP (VExpr e1) w1 b1 -> with_i SP (VExpr e2) w2 b2 -> b1 || b2 = true ->
  pure_to (op_re _ _ _ _ _ SP w1) a1 -> pure_to (op_im _ _ _ _ _ SP w1) c1 ->
  pure_to (op_re _ _ _ _ _ SP w2) a2 -> pure_to (op_im _ _ _ _ _ SP w2) c2 ->
  pure_to (get_sympy_type SP a1) ta1 -> pure_to (get_sympy_type SP c1) tc1 -> pure_to (get_sympy_type SP a2) ta2 -> pure_to (get_sympy_type SP c2) tc2 ->
  pure_to (equal_sympy SP n a1 a2 ta1 ta2) x -> pure_to (equal_sympy SP n c1 c2 tc1 tc2) y ->
  pure_to (compare SP (S (S n)) (VExpr e1) (VExpr e2)) (x && y).
Proof. exact (letter_i SP n e1 e2 w1 w2 b1 b2 a1 c1 a2 c2 ta1 tc1 ta2 tc2 x y). Qed.
Print Assumptions C89_letter_i.
(* i times i against -1 *)
Example C89_ex : pure_to (compare Q0 5 (VExpr (QMul (QV 8) (QV 8))) (num (-1))) true.
Proof.
  apply (C89_letter_i _ _ _ _ _ Q0 3 (QMul (QV 8) (QV 8)) (QN false (-1)) (VExpr (QC (-1) 0)) (num (-1)) true false (num (-1)) (num 0) (num (-1)) (num 0)
    TExpr TExpr TExpr TExpr true true); try (intro st; reflexivity); try reflexivity.
  - apply (wi_only _ _ 8); try (intro st; reflexivity). reflexivity.
  - apply (wi_not _ _ []); [intro st; reflexivity|discriminate].
Qed.
(* i x against i y: i is a symbol like the others *)
Example C89_ex2 : with_i Q0 (VExpr (QMul (QV 8) (QV 0))) (VExpr (QMul (QV 8) (QV 0))) false.
Proof. apply (wi_not _ _ [8; 0]); [intro st; reflexivity|discriminate]. Qed.

(** ** C90 *)
Theorem C90_two_definitions St Ex Ob Sym Num (SP : Sympy St Ex Ob Sym Num) n l1 r1 l2 r2 b : is_name SP l1 \/ is_name SP l2 -> is_name SP l1 \/ no_name SP l1 -> is_name SP l2 \/ no_name SP l2 ->
  pure_to (compare SP n r1 r2) b -> pure_to (compare SP (S n) (VEq l1 r1) (VEq l2 r2)) b.
Proof. exact (two_definitions SP n l1 r1 l2 r2 b). Qed.
Print Assumptions C90_two_definitions.
Theorem C90_definition_alone St Ex Ob Sym Num (SP : Sympy St Ex Ob Sym Num) n l r v t tr b : is_name SP l -> (forall a c, v <> VEq a c) ->
  pure_to (get_sympy_type SP v) t -> pure_to (get_sympy_type SP r) tr ->
  pure_to (equal_sympy SP n r v tr t) b -> pure_to (compare SP (S n) (VEq l r) v) b.
Proof. exact (definition_alone SP n l r v t tr b). Qed.
Print Assumptions C90_definition_alone.
Theorem C90_equations St Ex Ob Sym Num (SP : Sympy St Ex Ob Sym Num) n l1 r1 l2 r2 x y z tx ty (v : pyval Ex Ob -> pyval Ex Ob -> bool) :
  no_name SP l1 -> no_name SP l2 ->
  pure_to (op_sub _ _ _ _ _ SP l1 r1) x -> pure_to (op_sub _ _ _ _ _ SP l2 r2) y -> pure_to (op_neg _ _ _ _ _ SP x) z ->
  pure_to (get_sympy_type SP x) tx -> pure_to (get_sympy_type SP y) ty ->
  pure_to (equal_sympy SP n x y tx ty) (v x y) -> pure_to (equal_sympy SP n z y tx ty) (v z y) ->
  pure_to (compare SP (S n) (VEq l1 r1) (VEq l2 r2)) (v x y || v z y).
Proof. exact (fun N1 N2 => equations_pure SP n l1 r1 l2 r2 x y z tx ty v (no_name_type SP l1 r1 N1) (no_name_type SP l2 r2 N2)). Qed.
Print Assumptions C90_equations.
(* y = x against f(x) = x; 2y = x is an equation *)
Example C90_ex : is_name Q0 Y /\ is_name Q0 (VExpr (QF 0 (QV 0))) /\ no_name Q0 (VExpr (QMul (QN false 2) (QV 1))).
Proof.
  split; [|split].
  - exists Y, false, false, true. repeat split; intro; reflexivity.
  - exists (VExpr (QF 0 (QV 0))), true, true, false. repeat split; intro; reflexivity.
  - eexists. repeat split; intro; reflexivity.
Qed.
Example C90_ex2 : pure_to (compare Q0 6 (VEq Y X) (VEq (VExpr (QF 0 (QV 0))) (num 3))) false.
Proof. apply C90_two_definitions; try (left; apply C90_ex). intro st. reflexivity. Qed.
