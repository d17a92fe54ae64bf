(** Properties C32-C41 and C59-C61 of the symbolic comparison (latex_parser.py), for every back end. *)
From Coq Require Import String List NArith ZArith QArith Qabs Bool Lia.
From Verif Require Import PyStr Monad MonadTheory Parser ParserTheory ParserNum DemoSympy.
Import ListNotations.
Local Open Scope mon_scope.
Local Open Scope nat_scope.
Local Notation none := (fun _ : pystr => @None qval).
Local Notation Q0 := (QSympy none none).
Local Notation num q := (VExpr (QN false q) : qval).
Local Notation dec q := (VExpr (QN true q) : qval).
Local Notation X := (VExpr (QV 0) : qval).
Local Notation Y := (VExpr (QV 1) : qval).

(** ** C32 *)
Theorem C32_total St Ex Ob Sym Num (SP : Sympy St Ex Ob Sym Num) n gt gv st :
  exists b, fst (are_equal_under_sympy_repo SP n gt gv st) = Ret b.
Proof. exact (under_sympy_total SP n gt gv st). Qed.
Print Assumptions C32_total.
(** Both parses never raise and give at most two candidates. *)
Theorem C32_parse_total St Ex Ob Sym Num (SP : Sympy St Ex Ob Sym Num) s st :
  exists a b c, fst (sympy_parse SP s st) = Ret [a; b; c] /\ (a <> None -> b = None).
Proof. exact (parse_total SP s st). Qed.
Print Assumptions C32_parse_total.
Example C32_ex : fst (are_equal_under_sympy_repo Q0 5 (u "anything") (u "at all") []) = Ret false.
Proof. reflexivity. Qed.

(** ** C33 *)
Theorem C33_which_pair St Ex Ob Sym Num (SP : Sympy St Ex Ob Sym Num) n gt gv st :
  fst (are_equal_under_sympy_repo SP n gt gv st) = Ret true <->
  exists c1 st1 c2 st2 st3, sympy_parse SP gt st = (Ret c1, st1) /\ sympy_parse SP gv st1 = (Ret c2, st2) /\
    first_success (compare SP n) (list_prod (parsed c1) (parsed c2)) st2 st3.
Proof. exact (under_sympy_spec SP n gt gv st). Qed.
Print Assumptions C33_which_pair.
Theorem C33_exception_hides St Ex Ob Sym Num (SP : Sympy St Ex Ob Sym Num) n gt gv st st1 st2 a c1 b c2 e st3 :
  sympy_parse SP gt st = (Ret (Some a :: c1), st1) -> sympy_parse SP gv st1 = (Ret (Some b :: c2), st2) ->
  compare SP n a b st2 = (Raise e, st3) -> are_equal_under_sympy_repo SP n gt gv st = (Ret false, st3).
Proof. exact (first_raises SP n gt gv st st1 st2 a c1 b c2 e st3). Qed.
Print Assumptions C33_exception_hides.
(** latex2sympy reads [x != 1] and sympy's parser the number 5, for both answers. *)
Definition hidden_latex (s : pystr) : option qval := Some (VRel OpNe X (num 1)).
Definition hidden_plain (s : pystr) : option qval := Some (num 5).
Example C33_ex1 : fst (are_equal_under_sympy_repo (QSympy hidden_plain none) 5 (u "5") (u "5.0") []) = Ret true.
Proof.
  apply C33_which_pair. exists [Some (num 5); None; None], [], [Some (num 5); None; None], [], [].
  split; [reflexivity|]. split; [reflexivity|]. apply (fs _ _ _ [] (num 5) (num 5) [] [] []); [reflexivity|constructor|reflexivity].
Qed.
Theorem C33_hidden_pair_refuted : exists t t' a b,
  fst (sympy_parse (QSympy t t') (u "a") []) = Ret [Some a; None; Some b] /\
  fst (compare (QSympy t t') 5 b b []) = Ret true /\
  fst (are_equal_under_sympy_repo (QSympy t t') 5 (u "a") (u "a") []) = Ret false.
Proof. exists hidden_latex, hidden_plain, (VRel OpNe X (num 1)), (num 5). vm_compute. auto. Qed.
Print Assumptions C33_hidden_pair_refuted.

(** ** C34 *)
Theorem C34_vectors St Ex Ob Sym Num (SP : Sympy St Ex Ob Sym Num) n l1 l2 v :
  (forall a b, In (a, b) (combine l1 l2) -> pure_to (compare SP n a b) (v a b)) ->
  exists r, pure_to (compare SP (S n) (VList l1) (VList l2)) r /\ (r = true <-> Forall2 (fun a b => v a b = true) l1 l2).
Proof. exact (vectors SP n l1 l2 v). Qed.
Print Assumptions C34_vectors.
Theorem C34_vectors_sound St Ex Ob Sym Num (SP : Sympy St Ex Ob Sym Num) n l1 l2 st :
  fst (compare SP (S n) (VList l1) (VList l2) st) = Ret true -> Forall2 (fun a b => exists s, fst (compare SP n a b s) = Ret true) l1 l2.
Proof. exact (vectors_sound SP n l1 l2 st). Qed.
Print Assumptions C34_vectors_sound.
Theorem C34_vector_not_set St Ex Ob Sym Num (SP : Sympy St Ex Ob Sym Num) n l1 l2 :
  quiet (compare SP (S n) (VList l1) (VSet l2)) false /\ quiet (compare SP (S n) (VSet l1) (VList l2)) false.
Proof. exact (vector_not_set SP n l1 l2). Qed.
Print Assumptions C34_vector_not_set.
Example C34_ex : pure_to (compare Q0 5 (VList [num 1; num 7]) (VList [dec (1004 # 1000); num 7])) true.
Proof.
  destruct (C34_vectors _ _ _ _ _ Q0 4 [num 1; num 7] [dec (1004 # 1000); num 7] (fun _ _ => true)) as (r & P & H).
  - intros a b [[= <- <-]|[[= <- <-]|[]]] st; reflexivity.
  - replace true with r; [exact P|]. apply H. repeat constructor.
Qed.

(** ** C35 *)
Theorem C35_sets St Ex Ob Sym Num (SP : Sympy St Ex Ob Sym Num) n l1 l2 (ty : pyval Ex Ob -> atype) (v : pyval Ex Ob -> pyval Ex Ob -> bool) :
  (forall a, In a l1 \/ In a l2 -> pure_to (get_sympy_type SP a) (ty a)) ->
  (forall a b, In a l1 -> In b l2 -> pure_to (equal_sympy SP n a b (ty a) (ty b)) (v a b)) ->
  exists r, pure_to (compare SP (S n) (VSet l1) (VSet l2)) r /\
    (r = true <-> length l1 = length l2 /\ forall a, In a l1 -> exists b, In b l2 /\ v a b = true).
Proof. exact (sets SP n l1 l2 ty v). Qed.
Print Assumptions C35_sets.
Theorem C35_sets_sound St Ex Ob Sym Num (SP : Sympy St Ex Ob Sym Num) n l1 l2 st :
  fst (compare SP (S n) (VSet l1) (VSet l2) st) = Ret true ->
  length l1 = length l2 /\ forall a, In a l1 -> exists b t1 t2 s, In b l2 /\ fst (equal_sympy SP n a b t1 t2 s) = Ret true.
Proof. exact (sets_sound SP n l1 l2 st). Qed.
Print Assumptions C35_sets_sound.
(** {1, 1.001} as ground truth accepts {1, 7}, but not the other way round. *)
Theorem C35_symmetric_refuted : exists l1 l2,
  fst (compare Q0 5 (VSet l1) (VSet l2) []) = Ret true /\ fst (compare Q0 5 (VSet l2) (VSet l1) []) = Ret false.
Proof. exists [num 1; dec (1001 # 1000)], [num 1; num 7]. vm_compute. auto. Qed.
Print Assumptions C35_symmetric_refuted.
Example C35_ex : pure_to (compare Q0 5 (VSet [num 1; dec (1001 # 1000)]) (VSet [num 7; num 1])) true.
Proof.
  destruct (C35_sets _ _ _ _ _ Q0 4 [num 1; dec (1001 # 1000)] [num 7; num 1] (fun _ => TExpr) (fun a b => veqb b (num 1))) as (r & P & H).
  - intros a [[<-|[<-|[]]]|[<-|[<-|[]]]] st; reflexivity.
  - intros a b [<-|[<-|[]]] [<-|[<-|[]]] st; reflexivity.
  - replace true with r; [exact P|]. apply H. split; [reflexivity|]. intros a _. exists (num 1). split; [right; left; reflexivity|reflexivity].
Qed.

(** ** C36 *)
Theorem C36_inequalities St Ex Ob Sym Num (SP : Sympy St Ex Ob Sym Num) n o1 l1 r1 o2 l2 r2 a1 b1 a2 b2 st :
  strict o1 = strict o2 -> sides o1 l1 r1 = Some (a1, b1) -> sides o2 l2 r2 = Some (a2, b2) ->
  compare SP (S n) (VRel o1 l1 r1) (VRel o2 l2 r2) st =
  (x <- op_sub _ _ _ _ _ SP a1 b1 ;; y <- op_sub _ _ _ _ _ SP a2 b2 ;; compare SP n x y) st.
Proof. exact (inequalities SP n o1 l1 r1 o2 l2 r2 a1 b1 a2 b2 st). Qed.
Print Assumptions C36_inequalities.
Theorem C36_strictness St Ex Ob Sym Num (SP : Sympy St Ex Ob Sym Num) n o1 l1 r1 o2 l2 r2 st :
  strict o1 <> strict o2 -> fst (compare SP n (VRel o1 l1 r1) (VRel o2 l2 r2) st) <> Ret true.
Proof. exact (strictness SP n o1 l1 r1 o2 l2 r2 st). Qed.
Print Assumptions C36_strictness.
Theorem C36_flipped St Ex Ob Sym Num (SP : Sympy St Ex Ob Sym Num) n o1 l1 r1 o2 l2 r2 st : o1 <> OpNe -> o2 <> OpNe ->
  fst (compare SP (S n) (VRel (mirror o1) r1 l1) (VRel o2 l2 r2) st) = fst (compare SP (S n) (VRel o1 l1 r1) (VRel o2 l2 r2) st) /\
  fst (compare SP (S n) (VRel o1 l1 r1) (VRel (mirror o2) r2 l2) st) = fst (compare SP (S n) (VRel o1 l1 r1) (VRel o2 l2 r2) st).
Proof. exact (mirror_same SP n o1 l1 r1 o2 l2 r2 st). Qed.
Print Assumptions C36_flipped.
Example C36_ex1 st : fst (compare Q0 5 (VRel OpGe (num 1) X) (VRel OpLe X (num 1)) st) = Ret true.
Proof. rewrite (C36_inequalities _ _ _ _ _ Q0 4 _ _ _ _ _ _ X (num 1) X (num 1) st); reflexivity. Qed.
Example C36_ex2 st : fst (compare Q0 5 (VRel OpGe (num 1) X) (VRel OpLt X (num 1)) st) <> Ret true.
Proof. apply C36_strictness. discriminate. Qed.

(** ** C37 *)
Theorem C37_raises St Ex Ob Sym Num (SP : Sympy St Ex Ob Sym Num) n o1 l1 r1 o2 l2 r2 st : strict o1 <> strict o2 \/ strict o1 = None ->
  exists e, compare SP (S n) (VRel o1 l1 r1) (VRel o2 l2 r2) st = (Raise e, st) /\ is_Exception e = true.
Proof. exact (uncomparable SP n o1 l1 r1 o2 l2 r2 st). Qed.
Print Assumptions C37_raises.
(** Answers whose first parses are such relations are rejected whatever the other parses are. *)
Theorem C37_rejected St Ex Ob Sym Num (SP : Sympy St Ex Ob Sym Num) n gt gv st st1 st2 o1 l1 r1 c1 o2 l2 r2 c2 :
  sympy_parse SP gt st = (Ret (Some (VRel o1 l1 r1) :: c1), st1) -> sympy_parse SP gv st1 = (Ret (Some (VRel o2 l2 r2) :: c2), st2) ->
  strict o1 <> strict o2 \/ strict o1 = None -> are_equal_under_sympy_repo SP (S n) gt gv st = (Ret false, st2).
Proof. exact (relations_rejected SP n gt gv st st1 st2 o1 l1 r1 c1 o2 l2 r2 c2). Qed.
Print Assumptions C37_rejected.
Example C37_ex : are_equal_under_sympy_repo (QSympy hidden_latex hidden_plain) 5 (u "x \ne 1") (u "x \ne 1") [] = (Ret false, []).
Proof.
  apply (C37_rejected _ _ _ _ _ (QSympy hidden_latex hidden_plain) 4 _ _ [] [] [] OpNe X (num 1) [None; Some (num 5)] OpNe X (num 1) [None; Some (num 5)]); [reflexivity|reflexivity|].
  right. reflexivity.
Qed.

(** ** C38 *)
Theorem C38_equations St Ex Ob Sym Num (SP : Sympy St Ex Ob Sym Num) n l1 r1 l2 r2 x y z tx ty (v : pyval Ex Ob -> pyval Ex Ob -> bool) :
  pure_to (get_sympy_type SP (VEq l1 r1)) TEqul -> pure_to (get_sympy_type SP (VEq l2 r2)) TEqul ->
  pure_to (op_sub _ _ _ _ _ SP l1 r1) x -> pure_to (op_sub _ _ _ _ _ SP l2 r2) y -> pure_to (op_neg _ _ _ _ _ SP x) z ->
  pure_to (get_sympy_type SP x) tx -> pure_to (get_sympy_type SP y) ty ->
  pure_to (equal_sympy SP n x y tx ty) (v x y) -> pure_to (equal_sympy SP n z y tx ty) (v z y) ->
  pure_to (compare SP (S n) (VEq l1 r1) (VEq l2 r2)) (v x y || v z y).
Proof. exact (equations_pure SP n l1 r1 l2 r2 x y z tx ty v). Qed.
Print Assumptions C38_equations.
Theorem C38_definitions St Ex Ob Sym Num (SP : Sympy St Ex Ob Sym Num) n a b t1 t2 : t1 = TFunc \/ t2 = TFunc -> forall st,
  equal_sympy SP (S n) a b t1 t2 st =
  (x <- defined SP a t1 ;; y <- defined SP b t2 ;; equal_sympy SP n (fst x) (fst y) (snd x) (snd y)) st.
Proof. exact (functions SP n a b t1 t2). Qed.
Print Assumptions C38_definitions.
Theorem C38_names_ignored St Ex Ob Sym Num (SP : Sympy St Ex Ob Sym Num) n l1 l1' r1 l2 l2' r2 t1 t2 st : t1 = TFunc \/ t2 = TFunc ->
  equal_sympy SP (S n) (VEq l1 r1) (VEq l2 r2) t1 t2 st = equal_sympy SP (S n) (VEq l1' r1) (VEq l2' r2) t1 t2 st.
Proof. exact (names_ignored SP n l1 l1' r1 l2 l2' r2 t1 t2 st). Qed.
Print Assumptions C38_names_ignored.
Example C38_ex1 : pure_to (compare Q0 5 (VEq (num 3) (num 1)) (VEq (num 1) (num 3))) true.
Proof.
  exact (C38_equations _ _ _ _ _ Q0 4 (num 3) (num 1) (num 1) (num 3) (num (3 - 1)) (num (1 - 3)) (VExpr (QMul (QN false (-1)) (QN false (3 - 1)))) TExpr TExpr
    (fun a _ => match a with VExpr (QMul _ _) => true | _ => false end)
    (fun _ => eq_refl) (fun _ => eq_refl) (fun _ => eq_refl) (fun _ => eq_refl) (fun _ => eq_refl) (fun _ => eq_refl) (fun _ => eq_refl) (fun _ => eq_refl) (fun _ => eq_refl)).
Qed.
(** y = x against f(x) = x, and against x alone *)
Example C38_ex2 st : fst (compare Q0 5 (VEq Y X) (VEq (VExpr (QF 0 (QV 0))) X) st) = Ret true.
Proof.
  change (compare Q0 5 (VEq Y X) (VEq (VExpr (QF 0 (QV 0))) X) st) with (equal_sympy Q0 5 (VEq Y X) (VEq (VExpr (QF 0 (QV 0))) X) TFunc TFunc st).
  rewrite C38_definitions by (left; reflexivity). reflexivity.
Qed.
Example C38_ex3 st : fst (equal_sympy Q0 5 (VEq Y X) X TFunc TExpr st) = Ret true.
Proof. rewrite C38_definitions by (left; reflexivity). reflexivity. Qed.

(** ** C39 *)
Theorem C39_tolerance St Ex Ob Sym Num (SP : Sympy St Ex Ob Sym Num) num (Hx : exact SP num) g q i d p j : num g q i -> num d p j ->
  exists b, pure_to (diff_equal SP g d) (Some b) /\ (b = true <-> close i q p).
Proof. exact (diff_equal_exact SP num Hx g q i d p j). Qed.
Print Assumptions C39_tolerance.
Theorem C39_not_symmetric St Ex Ob Sym Num (SP : Sympy St Ex Ob Sym Num) num (Hx : exact SP num) n g i v j :
  num g 1%Q i -> num v (9955 # 10000) j -> pure_to (compare SP (S n) g v) true /\ pure_to (compare SP (S n) v g) false.
Proof. exact (asymmetric SP num Hx n g i v j). Qed.
Print Assumptions C39_not_symmetric.
Theorem C39_not_transitive St Ex Ob Sym Num (SP : Sympy St Ex Ob Sym Num) num (Hx : exact SP num) n a i b j c k :
  num a 1%Q i -> num b (1004 # 1000) j -> num c (1008 # 1000) k ->
  pure_to (compare SP (S n) a b) true /\ pure_to (compare SP (S n) b c) true /\ pure_to (compare SP (S n) a c) false.
Proof. exact (intransitive SP num Hx n a i b j c k). Qed.
Print Assumptions C39_not_transitive.
Local Ltac number := eexists; split; reflexivity.
Example C39_ex1 : pure_to (diff_equal Q0 (num (1 # 2)) (num (1 # 2500))) (Some true).
Proof.
  destruct (C39_tolerance _ _ _ _ _ Q0 qnum (qexact _ _) (num (1 # 2)) (1 # 2) false (num (1 # 2500)) (1 # 2500) false) as (b & P & H); [number|number|].
  replace true with b; [exact P|]. apply H. right; right; right. repeat split; reflexivity.
Qed.
Example C39_ex2 : pure_to (compare Q0 5 (num 1) (num (9955 # 10000))) true /\ pure_to (compare Q0 5 (num (9955 # 10000)) (num 1)) false.
Proof. apply (C39_not_symmetric _ _ _ _ _ Q0 qnum (qexact _ _) 4 (num 1) true (num (9955 # 10000)) false); number. Qed.
Example C39_ex3 : pure_to (compare Q0 5 (num 1) (dec (1004 # 1000))) true /\ pure_to (compare Q0 5 (dec (1004 # 1000)) (num (1008 # 1000))) true /\
  pure_to (compare Q0 5 (num 1) (num (1008 # 1000))) false.
Proof. apply (C39_not_transitive _ _ _ _ _ Q0 qnum (qexact _ _) 4 (num 1) true (dec (1004 # 1000)) false (num (1008 # 1000)) false); number. Qed.

(** ** C40 *)
Theorem C40_no_false_negatives St Ex Ob Sym Num (SP : Sympy St Ex Ob Sym Num) rng gt gv f1 f2 : rng_returns SP -> object gt -> object gv ->
  pure_to (op_free_symbols _ _ _ _ _ SP gt) f1 -> pure_to (op_free_symbols _ _ _ _ _ SP gv) f2 ->
  op_same_symbols _ _ _ _ _ SP f1 f2 = true -> same_values SP f1 gt gv -> pure_to (numerical_equal SP rng gt gv) true.
Proof. exact (numerical_accepts SP rng gt gv f1 f2). Qed.
Print Assumptions C40_no_false_negatives.
Theorem C40_different_symbols St Ex Ob Sym Num (SP : Sympy St Ex Ob Sym Num) rng gt gv f1 f2 st s1 s2 : object gt -> object gv ->
  op_free_symbols _ _ _ _ _ SP gt st = (Ret f1, s1) -> op_free_symbols _ _ _ _ _ SP gv s1 = (Ret f2, s2) ->
  op_same_symbols _ _ _ _ _ SP f1 f2 = false -> numerical_equal SP rng gt gv st = (Ret false, s2).
Proof. exact (numerical_rejects SP rng gt gv f1 f2 st s1 s2). Qed.
Print Assumptions C40_different_symbols.
(** At most ten assignments: ten numbers for each symbol of the ground truth. *)
Theorem C40_draws St Ex Ob Sym Num (SP : Sympy St Ex Ob Sym Num) (c : St -> nat) : counts SP c -> forall rng gt gv f1,
  (forall st, match fst (op_free_symbols _ _ _ _ _ SP gt st) with Ret f => f = f1 | Raise _ => True end) ->
  draws c (10 * length f1) (numerical_equal SP rng gt gv).
Proof. exact (fun C rng gt gv f1 => numerical_draws SP c C rng gt gv f1). Qed.
Print Assumptions C40_draws.
(** (x + 1)(x + 1) and x x + 2 x + 1 *)
Definition square : qval := VExpr (QMul (QAdd (QV 0) (QN false 1)) (QAdd (QV 0) (QN false 1))).
Definition expanded : qval := VExpr (QAdd (QAdd (QMul (QV 0) (QV 0)) (QMul (QN false 2) (QV 0))) (QN false 1)).
Lemma square_values : same_values Q0 [0] square expanded.
Proof.
  intros [|[x q] [|? ?]] H; try discriminate H. injection H as ->. unfold square, expanded. cbn [op_evalf QSympy qeval lookup Nat.eqb].
  do 3 eexists. split; [intro st; reflexivity|]. split; [intro st; reflexivity|]. split; [discriminate|]. split; [discriminate|]. split; [intro st; reflexivity|].
  intro st. cbn [is_sympy_zero qsub op_eq0 QSympy on_number]. unfold bind, ret.
  match goal with |- context [Qeq_bool ?a 0] => assert (Qeq_bool a 0 = true) as -> by (apply Qeq_bool_iff; ring) end. reflexivity.
Qed.
Example C40_ex1 : pure_to (numerical_equal Q0 Uniform square expanded) true.
Proof.
  apply (C40_no_false_negatives _ _ _ _ _ Q0 Uniform square expanded [0] [0] (qrng_returns _ _)); try exact I; try (intro st; reflexivity); try reflexivity.
  exact square_values.
Qed.
Example C40_ex2 st : numerical_equal Q0 RandInt square Y st = (Ret false, st).
Proof. apply (C40_different_symbols _ _ _ _ _ Q0 RandInt square Y [0] [1] st st st); try exact I; reflexivity. Qed.
Example C40_ex3 n : draws (fun st => n - length st) 10 (numerical_equal Q0 RandInt square expanded).
Proof. exact (C40_draws _ _ _ _ _ Q0 _ (qcounts _ _ n) RandInt square expanded [0] (fun _ => eq_refl)). Qed.

(** ** C41 *)
Theorem C41_matrix_list St Ex Ob Sym Num (SP : Sympy St Ex Ob Sym Num) n r c f l (v : pyval Ex Ob -> pyval Ex Ob -> bool) : column SP l ->
  (forall i j k, i < r -> j < c -> k < length l -> pure_to (compare SP n (f i j) (nth_entry l k)) (v (f i j) (nth_entry l k))) ->
  exists b, pure_to (compare SP (S (S n)) (VMat r c f) (VList l)) b /\
    (b = true <-> ((r = length l /\ c = 1) \/ (r = 1 /\ c = length l)) /\ forall k, k < length l -> v (line c f k) (nth_entry l k) = true).
Proof. exact (list_matrix SP n r c f l v). Qed.
Print Assumptions C41_matrix_list.
Theorem C41_list_matrix St Ex Ob Sym Num (SP : Sympy St Ex Ob Sym Num) n r c f l (v : pyval Ex Ob -> pyval Ex Ob -> bool) : column SP l ->
  (forall i j k, i < r -> j < c -> k < length l -> pure_to (compare SP n (nth_entry l k) (f i j)) (v (nth_entry l k) (f i j))) ->
  exists b, pure_to (compare SP (S (S n)) (VList l) (VMat r c f)) b /\
    (b = true <-> ((r = length l /\ c = 1) \/ (r = 1 /\ c = length l)) /\ forall k, k < length l -> v (nth_entry l k) (line c f k) = true).
Proof. exact (matrix_list SP n r c f l v). Qed.
Print Assumptions C41_list_matrix.
Local Notation row := (fun _ j => num (inject_Z (Z.of_nat j))).
Local Notation l3 := [num 0; num 1; num 2].
Lemma column_ex : column Q0 l3.
Proof. exists (fun i _ => nth i l3 VNone). split; [intro st; reflexivity|reflexivity]. Qed.
Example C41_ex1 : pure_to (compare Q0 5 (VMat 1 3 row) (VList l3)) true.
Proof.
  destruct (C41_matrix_list _ _ _ _ _ Q0 3 1 3 row l3 veqb column_ex) as (b & P & H).
  - intros [|i] [|[|[|j]]] [|[|[|k]]] Hi Hj Hk; try (exfalso; cbn in *; lia); intro st; reflexivity.
  - replace true with b; [exact P|]. apply H. split; [right; split; reflexivity|]. intros [|[|[|k]]] Hk; try (exfalso; cbn in *; lia); reflexivity.
Qed.
Example C41_ex2 : pure_to (compare Q0 5 (VList l3) (VMat 2 2 row)) false.
Proof.
  destruct (C41_list_matrix _ _ _ _ _ Q0 3 2 2 row l3 veqb column_ex) as (b & P & H).
  - intros [|[|i]] [|[|j]] [|[|[|k]]] Hi Hj Hk; try (exfalso; cbn in *; lia); intro st; reflexivity.
  - destruct b; [|exact P]. destruct (proj1 H eq_refl) as [[[E _]|[E _]] _]; discriminate E.
Qed.

(** ** C59 *)
(** Numbers as compared: the ground truth has become a Float, so integers get the loose bound. *)
Theorem C59_numbers St Ex Ob Sym Num (SP : Sympy St Ex Ob Sym Num) num (Hx : exact SP num) n g q i v p j : num g q i -> num v p j ->
  exists b, pure_to (compare SP (S n) g v) b /\ (b = true <-> scalar_close q p).
Proof. exact (compare_exact SP num Hx n g q i v p j). Qed.
Print Assumptions C59_numbers.
Theorem C59_integers_loose St Ex Ob Sym Num (SP : Sympy St Ex Ob Sym Num) num (Hx : exact SP num) n g z i v p j :
  num g (inject_Z z) i -> num v p j -> z <> 0%Z -> (Qabs (inject_Z z - p) < 5 # 1000)%Q -> pure_to (compare SP (S n) g v) true.
Proof. exact (integers_loose SP num Hx n g z i v p j). Qed.
Print Assumptions C59_integers_loose.
Example C59_ex1 : pure_to (compare Q0 5 (num 5) (dec (5004 # 1000))) true.
Proof. apply (C59_integers_loose _ _ _ _ _ Q0 qnum (qexact _ _) 4 (num 5) 5 true (dec (5004 # 1000)) (5004 # 1000) false); [number|number|discriminate|reflexivity]. Qed.
Example C59_ex2 : pure_to (compare Q0 5 (num 0) (dec (1 # 2000))) true.
Proof.
  destruct (C59_numbers _ _ _ _ _ Q0 qnum (qexact _ _) 4 (num 0) 0 true (dec (1 # 2000)) (1 # 2000) false) as (b & P & H); [number|number|].
  replace true with b; [exact P|]. apply H. right; left. split; reflexivity.
Qed.

(** ** C60 *)
Theorem C60_matrices St Ex Ob Sym Num (SP : Sympy St Ex Ob Sym Num) n r1 c1 f r2 c2 g (v : pyval Ex Ob -> pyval Ex Ob -> bool) :
  (forall i j, i < r1 -> j < c1 -> pure_to (compare SP n (f i j) (g i j)) (v (f i j) (g i j))) ->
  exists b, pure_to (compare SP (S n) (VMat r1 c1 f) (VMat r2 c2 g)) b /\
    (b = true <-> r1 = r2 /\ c1 = c2 /\ forall i j, i < r1 -> j < c1 -> v (f i j) (g i j) = true).
Proof. exact (matrices SP n r1 c1 f r2 c2 g v). Qed.
Print Assumptions C60_matrices.
Example C60_ex : pure_to (compare Q0 5 (VMat 2 2 row) (VMat 2 2 (fun i j => num (inject_Z (Z.of_nat (i + j)))))) false.
Proof.
  destruct (C60_matrices _ _ _ _ _ Q0 4 2 2 row 2 2 (fun i j => num (inject_Z (Z.of_nat (i + j)))) veqb) as (b & P & H).
  - intros [|[|i]] [|[|j]] Hi Hj; try (exfalso; lia); intro st; reflexivity.
  - destruct b; [|exact P]. destruct (proj1 H eq_refl) as (_ & _ & F). specialize (F 1 1 ltac:(lia) ltac:(lia)). discriminate F.
Qed.

(** ** C61 *)
Theorem C61_complex St Ex Ob Sym Num (SP : Sympy St Ex Ob Sym Num) n e1 e2 a1 b1 a2 b2 ta1 tb1 ta2 tb2 x y :
  pure_to (get_sympy_type SP (VExpr e1)) TCplx -> pure_to (get_sympy_type SP (VExpr e2)) TCplx ->
  pure_to (op_re _ _ _ _ _ SP (VExpr e1)) a1 -> pure_to (op_im _ _ _ _ _ SP (VExpr e1)) b1 ->
  pure_to (op_re _ _ _ _ _ SP (VExpr e2)) a2 -> pure_to (op_im _ _ _ _ _ SP (VExpr e2)) b2 ->
  pure_to (get_sympy_type SP a1) ta1 -> pure_to (get_sympy_type SP b1) tb1 -> pure_to (get_sympy_type SP a2) ta2 -> pure_to (get_sympy_type SP b2) tb2 ->
  pure_to (equal_sympy SP n a1 a2 ta1 ta2) x -> pure_to (equal_sympy SP n b1 b2 tb1 tb2) y ->
  pure_to (compare SP (S n) (VExpr e1) (VExpr e2)) (x && y).
Proof. exact (complex SP n e1 e2 a1 b1 a2 b2 ta1 tb1 ta2 tb2 x y). Qed.
Print Assumptions C61_complex.
Example C61_ex : pure_to (compare Q0 5 (VExpr (QC 1 2)) (VExpr (QC 1 3))) false.
Proof.
  exact (C61_complex _ _ _ _ _ Q0 4 (QC 1 2) (QC 1 3) (num 1) (num 2) (num 1) (num 3) TExpr TExpr TExpr TExpr true false
    (fun _ => eq_refl) (fun _ => eq_refl) (fun _ => eq_refl) (fun _ => eq_refl) (fun _ => eq_refl) (fun _ => eq_refl)
    (fun _ => eq_refl) (fun _ => eq_refl) (fun _ => eq_refl) (fun _ => eq_refl) (fun _ => eq_refl) (fun _ => eq_refl)).
Qed.
