(** Properties C42-C44, C55 and C107 of is_equiv_type. *)
From Coq Require Import String List NArith ZArith Bool.
From Verif Require Import PyStr Regex Normalize Monad Split SplitTheory Eval EvalTheory TypeEval TypeTheory Demo Imaginary.
Import ListNotations.
Local Ltac vm := vm_compute; reflexivity.

(** ** C42 *)
Theorem C42_no_hint W n gt gv h st :
  (forall name, In name [u "Complex"; u "Set"; u "Vector"; u "Function"] -> contains name h = false) ->
  is_equiv_type W n gt gv (Some h) st = is_equiv W n (Some gt) (Some gv) st.
Proof. exact (no_hint W n gt gv h st). Qed.
Print Assumptions C42_no_hint.
Theorem C42_hint_accepts W n gt gv h st b :
  (forall st', fst (is_equiv W n (Some gt) (Some gv) st') = Ret true) ->
  fst (is_equiv_type W n gt gv h st) = Ret b -> b = true.
Proof. exact (hint_accepts W n gt gv h st b). Qed.
Print Assumptions C42_hint_accepts.
Example C42_ex1 : is_equiv_type counting_world 2 (u "1") (u "2") (Some (u "Real")) O
  = is_equiv counting_world 2 (Some (u "1")) (Some (u "2")) O.
Proof. apply C42_no_hint. intros name [<-|[<-|[<-|[<-|[]]]]]; vm. Qed.
Example C42_ex2 : forall b, fst (is_equiv_type (table_world []) 2 (u " (1,2)") (u "(1,2)") (Some (u "Complex Set")) tt) = Ret b -> b = true.
Proof. intro b. apply C42_hint_accepts. intro st. vm. Qed.

(** ** C43 *)
Theorem C43_set_vector_accept_all W n gt gv h a b st :
  (forall x y st' e, fst (interval_compare W x y st') = Raise e -> is_Exception e = true) ->
  contains (u "Complex") h = false -> contains (u "Set") h || contains (u "Vector") h = true ->
  string_normalize (int_str W) gt = NStr a -> string_normalize (int_str W) gv = NStr b ->
  balance a = 0%Z -> balance b = 0%Z ->
  fst (is_equiv_type W (S n) gt gv (Some h) st) = Ret true.
Proof. exact (set_vector_accepts W n gt gv h a b st). Qed.
Print Assumptions C43_set_vector_accept_all.
(** Different vectors are accepted although is_equiv rejects them. *)
Example C43_ex : fst (is_equiv (table_world []) 5 (Some (u "(1,2)")) (Some (u "(3,4,5)")) tt) = Ret false /\
  fst (is_equiv_type (table_world []) 5 (u "(1,2)") (u "(3,4,5)") (Some (u "Vector")) tt) = Ret true.
Proof.
  split; [vm|]. apply (C43_set_vector_accept_all (table_world []) 4 _ _ _ (u "(1,2)") (u "(3,4,5)")); try vm.
  intros x y st' e H. discriminate H.
Qed.

(** ** C44 *)
Theorem C44_no_hint_type_error W n gt gv st : is_equiv_type W n gt gv None st = (Raise TypeError, st).
Proof. exact eq_refl. Qed.
Print Assumptions C44_no_hint_type_error.
Theorem C44_set_vector_attribute_error W n gt gv h st :
  contains (u "Complex") h = false -> contains (u "Set") h || contains (u "Vector") h = true ->
  is_set_norm (string_normalize (int_str W) gt) \/ is_set_norm (string_normalize (int_str W) gv) ->
  is_equiv_type W n gt gv (Some h) st = (Raise AttributeError, st).
Proof. exact (set_norm_attribute_error W n gt gv h st). Qed.
Print Assumptions C44_set_vector_attribute_error.
Theorem C44_complex_attribute_error W n gt gv h st :
  contains (u "Complex") h = true ->
  is_set_norm (string_normalize (int_str W) (str_to_complex gt)) \/ is_set_norm (string_normalize (int_str W) (str_to_complex gv)) ->
  is_equiv_type W n gt gv (Some h) st = (Raise AttributeError, st).
Proof. exact (complex_attribute_error W n gt gv h st). Qed.
Print Assumptions C44_complex_attribute_error.
(** With a hint and string normal forms it does return. *)
Theorem C44_total_otherwise W n :
  (forall x y st' e, fst (interval_compare W x y st') = Raise e -> is_Exception e = true) ->
  forall gt gv h st,
  str_norm (string_normalize (int_str W) gt) -> str_norm (string_normalize (int_str W) gv) ->
  (contains (u "Complex") h = true ->
     str_norm (string_normalize (int_str W) (str_to_complex gt)) /\ str_norm (string_normalize (int_str W) (str_to_complex gv))) ->
  exists b, fst (is_equiv_type W (S n) gt gv (Some h) st) = Ret b.
Proof. exact (is_equiv_type_total W n). Qed.
Print Assumptions C44_total_otherwise.
Example C44_ex1 : is_equiv_type counting_world 3 (u "50\%") (u "1") (Some (u "Set")) O = (Raise AttributeError, O).
Proof. apply C44_set_vector_attribute_error; [vm|vm|]. left. vm_compute. exact I. Qed.
Example C44_ex2 : is_equiv_type counting_world 3 (u "1") (u "30^\circ") (Some (u "Complex")) O = (Raise AttributeError, O).
Proof. apply C44_complex_attribute_error; [vm|]. right. vm_compute. exact I. Qed.
Example C44_ex3 : exists b, fst (is_equiv_type (raising_world ValueError) 3 (u "1+2i") (u "x=\frac") (Some (u "Complex Function")) tt) = Ret b.
Proof.
  apply C44_total_otherwise.
  - intros x y st' e [= <-]. reflexivity.
  - eexists. vm.
  - eexists. vm.
  - intros _. split; eexists; vm.
Qed.

(** ** C55 *)
Theorem C55_function_hint W n parses :
  (forall x st, (exists a, fst (parse_lhs W x st) = Ret a) <-> parses x = true) ->
  forall gt gv a b ra rb h v1 v2 st,
  contains (u "Complex") h = false -> contains (u "Set") h = false -> contains (u "Vector") h = false ->
  contains (u "Function") h = true ->
  string_normalize (int_str W) gt = NStr a -> string_normalize (int_str W) gv = NStr b ->
  function_body parses a ra -> function_body parses b rb ->
  (forall st', fst (is_equiv W n (Some gt) (Some gv) st') = Ret v1) ->
  (forall st', fst (is_equiv W n (Some ra) (Some rb) st') = Ret v2) ->
  fst (is_equiv_type W n gt gv (Some h) st) = Ret (v1 || v2).
Proof. exact (function_hint W n parses). Qed.
Print Assumptions C55_function_hint.
Example C55_ex : fst (is_equiv_type (table_world []) 3 (u "f(x)=x^2") (u "g(t) = x^2") (Some (u "Function")) tt) = Ret true.
Proof.
  refine (C55_function_hint (table_world []) 3 (fun _ => true) _ _ _ (u "f(x)=x^2") (u "g(t)=x^2") (u "x^2") (u "x^2") _ false true _ _ _ _ _ _ _ _ _ _ _).
  - intros x st. split; [reflexivity|]. intros _. exists tt. reflexivity.
  - vm.
  - vm.
  - vm.
  - vm.
  - vm.
  - vm.
  - apply (FB_rhs _ (u "f(x)") (u "x^2")); [discriminate| |reflexivity]. cbn. intuition discriminate.
  - apply (FB_rhs _ (u "g(t)") (u "x^2")); [discriminate| |reflexivity]. cbn. intuition discriminate.
  - intros []. vm.
  - intros []. vm.
Qed.

(** ** C107 *)
Theorem C107_imaginary s :
  str_to_complex s = if existsb (N.eqb 73) s then flat_map (fun c => if (c =? 73)%N then u "\sqrt{-1}" else [c]) s else imaginary None s.
Proof. exact (to_complex s). Qed.
Print Assumptions C107_imaginary.
Example C107_ex : str_to_complex (u "2in+x_i i") = u "2\sqrt{-1}n+x_i \sqrt{-1}" /\ str_to_complex (u "x+yi") = u "x+yi" /\
  str_to_complex (u "\sum_{i=1}x^i") = u "\sum_{\sqrt{-1}=1}x^\sqrt{-1}" /\ str_to_complex (u "I+i") = u "\sqrt{-1}+i".
Proof.
  repeat split; rewrite C107_imaginary; vm.
Qed.
