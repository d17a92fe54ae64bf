(** Properties C01-C12 and C14 of is_equiv. *)
From Coq Require Import String List NArith ZArith Bool Permutation RelationClasses.
From Verif Require Import PyStr PyStrTheory Regex Normalize Monad MonadTheory Split Eval Spec EvalTheory EvalTheory2 Demo.
Import ListNotations.
Local Ltac vm := vm_compute; reflexivity.
Local Ltac unpadded := rewrite <- padding_iff; vm_compute; discriminate.
Local Ltac neq := vm_compute; discriminate.
Local Ltac side := lazymatch goal with
  | |- ~ equal_up_to_padding _ _ _ => unpadded
  | |- normal_form _ _ _ => vm
  | |- _ <> _ => neq
  | |- str_is_mat _ = _ => vm
  | |- split_tuple _ _ = _ => vm
  | |- split_matrix _ = _ => vm
  | |- has_bracket _ = _ => vm
  | |- length _ = length _ => reflexivity
  | |- (_ || _)%bool = true => vm
  | |- _ => idtac
  end.

(** ** C01 *)
Theorem C01_is_equiv_total W n gt gv st :
  (forall x y st' e, fst (interval_compare W x y st') = Raise e -> is_Exception e = true) ->
  exists b, fst (is_equiv W (S n) gt gv st) = Ret b.
Proof. exact (is_equiv_total W n gt gv st). Qed.
Print Assumptions C01_is_equiv_total.
Example C01_ex : exists b, fst (is_equiv (raising_world ValueError) 3 (Some (u "(1,x)")) (Some (u "\frac{")) tt) = Ret b.
Proof. apply C01_is_equiv_total. intros x y st' e [= <-]. reflexivity. Qed.

(** ** C02 *)
Theorem C02_identical W n a b st : equal_up_to_padding is_space a b ->
  is_equiv W (S n) (Some a) (Some b) st = (Ret true, st).
Proof. exact (fun H => is_equiv_refl W n a b H st). Qed.
Print Assumptions C02_identical.
Example C02_ex : is_equiv counting_world 1 (Some (u "  \frac{")) (Some (u "\frac{ ")) O = (Ret true, O).
Proof.
  apply C02_identical. exists (u "\frac{"), (u "  "), [], [], (u " ").
  split; [reflexivity|]. split; [reflexivity|]. repeat constructor.
Qed.

(** ** C03 *)
Theorem C03_missing W n st :
  is_equiv W n None None st = (Ret true, st) /\
  forall s, is_equiv W n (Some s) None st = (Ret false, st) /\ is_equiv W n None (Some s) st = (Ret false, st).
Proof. exact (conj eq_refl (fun s => conj eq_refl eq_refl)). Qed.
Print Assumptions C03_missing.

(** ** C04 *)
Theorem C04_same_normal_form W n a b s st :
  string_normalize (int_str W) a = NStr s -> string_normalize (int_str W) b = NStr s ->
  is_equiv W (S n) (Some a) (Some b) st = (Ret true, st).
Proof. exact (fun Ha Hb => is_equiv_same_norm W n a b s Ha Hb st). Qed.
Print Assumptions C04_same_normal_form.
Example C04_ex : is_equiv counting_world 1 (Some (u "\dfrac{1}{2}")) (Some (u "$\frac{1}{2}$")) O = (Ret true, O).
Proof. apply (C04_same_normal_form counting_world 0 _ _ (u "\frac{1}{2}")); vm. Qed.

(** ** C05 *)
Theorem C05_empty_prediction W n a b st :
  ~ equal_up_to_padding is_space a b ->
  string_normalize (int_str W) b = NStr [] -> string_normalize (int_str W) a <> NStr [] ->
  is_equiv W (S n) (Some a) (Some b) st = (Ret false, st).
Proof. exact (fun Hp Hb Ha => is_equiv_empty_prediction W n a b Hp Hb Ha st). Qed.
Print Assumptions C05_empty_prediction.
Example C05_ex : is_equiv counting_world 1 (Some (u "42")) (Some (u "$$")) O = (Ret false, O).
Proof. apply C05_empty_prediction; [unpadded|vm|neq]. Qed.

(** ** C06 *)
Theorem C06_readings W n a b (v : pystr -> pystr -> bool) :
  ~ equal_up_to_padding is_space a b ->
  is_set_norm (string_normalize (int_str W) a) \/ is_set_norm (string_normalize (int_str W) b) ->
  (forall x y, reading_of x (string_normalize (int_str W) a) ->
               reading_of y (string_normalize (int_str W) b) ->
               pure_to (is_latex_equiv W (is_equiv_str W n) x y) (v x y)) ->
  forall st, fst (is_equiv W (S n) (Some a) (Some b) st) = Ret true <->
    exists x y, reading_of x (string_normalize (int_str W) a) /\
                reading_of y (string_normalize (int_str W) b) /\ v x y = true.
Proof. exact (is_equiv_readings W n a b v). Qed.
Print Assumptions C06_readings.
Example C06_ex : fst (is_equiv (table_world [(u "30/180*\pi", u "\frac{\pi}{6}")]) 3
                        (Some (u "30^\circ")) (Some (u "\frac{\pi}{6}")) tt) = Ret true.
Proof.
  set (W := table_world [(u "30/180*\pi", u "\frac{\pi}{6}")]).
  refine (proj2 (C06_readings W 2 (u "30^\circ") (u "\frac{\pi}{6}") (fun x y => str_eqb x (u "30/180*\pi")) _ _ _ tt) _).
  - unpadded.
  - left. vm_compute. exact I.
  - intros x y Hx Hy.
    assert (Ex : x = u "30" \/ x = u "30/180*\pi").
    { revert Hx. replace (string_normalize (int_str W) (u "30^\circ")) with (NSet [u "30"; u "30/180*\pi"]) by vm.
      cbn [reading_of In]. intros [H|[H|[]]]; [left|right]; symmetry; exact H. }
    assert (Ey : y = u "\frac{\pi}{6}").
    { revert Hy. replace (string_normalize (int_str W) (u "\frac{\pi}{6}")) with (NStr (u "\frac{\pi}{6}")) by vm. exact (fun H => H). }
    subst y. destruct Ex; subst x; intros []; vm.
  - exists (u "30/180*\pi"), (u "\frac{\pi}{6}").
    replace (string_normalize (int_str W) (u "30^\circ")) with (NSet [u "30"; u "30/180*\pi"]) by vm.
    replace (string_normalize (int_str W) (u "\frac{\pi}{6}")) with (NStr (u "\frac{\pi}{6}")) by vm.
    cbn [reading_of In]. split; [right; left; reflexivity|]. split; reflexivity.
Qed.

(** Acceptance in general: no hypothesis on the back end. *)
Theorem C06_accepted_has_reason W n a b st :
  fst (is_equiv W (S n) (Some a) (Some b) st) = Ret true ->
  equal_up_to_padding is_space a b \/
  (exists s, string_normalize (int_str W) a = NStr s /\ string_normalize (int_str W) b = NStr s) \/
  exists x y st', reading_of x (string_normalize (int_str W) a) /\
                  reading_of y (string_normalize (int_str W) b) /\
                  fst (is_latex_equiv W (is_equiv_str W n) x y st') = Ret true.
Proof. exact (is_equiv_readings_sound W n a b st). Qed.
Print Assumptions C06_accepted_has_reason.
Example C06_accepted_ex : fst (is_equiv counting_world 2 (Some (u "30^\circ")) (Some (u "x")) O) = Ret true.
Proof. vm. Qed.

(** ** C07 *)
Theorem C07_ordered_rule W n gt gv k l1 l2 (v : pystr -> pystr -> bool) :
  k <> KSet ->
  split_tuple gt None = Ret (SSeq k l1) -> split_tuple gv None = Ret (SSeq k l2) ->
  length l1 = length l2 ->
  (forall x y, In x l1 -> In y l2 -> pure_to (is_equiv_str W n x y) (v x y)) ->
  forall st, exists b, fst (possible_tuple W (is_equiv_str W n) gt gv st) = Ret (b, true) /\
                 (b = true <-> pointwise (fun x y => v x y = true) l1 l2).
Proof. exact (tuple_ordered W n gt gv k l1 l2 v). Qed.
Print Assumptions C07_ordered_rule.
Theorem C07_ordered W n a b s1 s2 k l1 l2 (v : pystr -> pystr -> bool) :
  ~ equal_up_to_padding is_space a b -> normal_form W a s1 -> normal_form W b s2 -> s1 <> s2 ->
  str_is_mat s1 = false -> str_is_mat s2 = false -> not_intervals W s1 s2 ->
  k <> KSet -> split_tuple s1 None = Ret (SSeq k l1) -> split_tuple s2 None = Ret (SSeq k l2) ->
  length l1 = length l2 ->
  (forall x y, In x l1 -> In y l2 -> pure_to (is_equiv_str W n x y) (v x y)) ->
  forall st, fst (is_equiv W (S n) (Some a) (Some b) st) = Ret true <-> pointwise (fun x y => v x y = true) l1 l2.
Proof. exact (is_equiv_ordered W n a b s1 s2 k l1 l2 v). Qed.
Print Assumptions C07_ordered.
Example C07_ex : fst (is_equiv (table_world [(u "x", u "y")]) 3 (Some (u "(1,x,3)")) (Some (u "(1,y,4)")) tt) <> Ret true.
Proof.
  rewrite (C07_ordered (table_world [(u "x", u "y")]) 2 _ _ (u "(1,x,3)") (u "(1,y,4)") KTuple
             [u "1"; u "x"; u "3"] [u "1"; u "y"; u "4"]
             (fun x y => str_eqb x y || in_table [(u "x", u "y")] x y)); side.
  - intros [_ H]. specialize (H 2%nat _ _ eq_refl eq_refl). vm_compute in H. discriminate.
  - intros _. exists false. intros []; vm.
  - intros x y Hx Hy. cbn [In] in Hx, Hy.
    destruct Hx as [<-|[<-|[<-|[]]]], Hy as [<-|[<-|[<-|[]]]]; intros []; vm.
Qed.

(** ** C08 *)
Theorem C08_matching_rule W n gt gv l1 l2 st sp :
  split_tuple gt None = Ret (SSeq KSet l1) -> split_tuple gv None = Ret (SSeq KSet l2) ->
  fst (possible_tuple W (is_equiv_str W n) gt gv st) = Ret (true, sp) ->
  exists d1 d2 rest,
    distinct_elements l1 d1 /\ distinct_elements l2 d2 /\
    matching (fun x y => exists st', fst (is_equiv_str W n x y st') = Ret true) d1 d2 rest /\
    (~ In (u "\in") l2 -> rest = []).
Proof. exact (tuple_set_sound W n gt gv l1 l2 st sp). Qed.
Print Assumptions C08_matching_rule.
Theorem C08_matching W n a b s1 s2 l1 l2 st :
  ~ equal_up_to_padding is_space a b -> normal_form W a s1 -> normal_form W b s2 -> s1 <> s2 ->
  str_is_mat s1 = false -> str_is_mat s2 = false -> not_intervals W s1 s2 ->
  split_tuple s1 None = Ret (SSeq KSet l1) -> split_tuple s2 None = Ret (SSeq KSet l2) ->
  fst (is_equiv W (S n) (Some a) (Some b) st) = Ret true ->
  exists d1 d2 rest,
    distinct_elements l1 d1 /\ distinct_elements l2 d2 /\
    matching (fun x y => exists st', fst (is_equiv_str W n x y st') = Ret true) d1 d2 rest /\
    (~ In (u "\in") l2 -> rest = []).
Proof. exact (is_equiv_unordered_sound W n a b s1 s2 l1 l2 st). Qed.
Print Assumptions C08_matching.
Example C08_ex : let W := table_world [(u "x", u "y")] in
  split_tuple (u "x,2,3") None = Ret (SSeq KSet [u "x"; u "2"; u "3"]) /\
  split_tuple (u "3,y,2") None = Ret (SSeq KSet [u "3"; u "y"; u "2"]) /\
  normal_form W (u "x,2,3") (u "x,2,3") /\ normal_form W (u "3,y,2") (u "3,y,2") /\
  not_intervals W (u "x,2,3") (u "3,y,2") /\
  fst (is_equiv W 3 (Some (u "x,2,3")) (Some (u "3,y,2")) tt) = Ret true.
Proof.
  cbv zeta. split; [vm|]. split; [vm|]. split; [vm|]. split; [vm|]. split; [|vm].
  intros H. exists false. intros []; vm.
Qed.

(** ** C09 *)
Theorem C09_complete W n a b s1 s2 l1 l2 d1 d2 (v : pystr -> pystr -> bool) :
  ~ equal_up_to_padding is_space a b -> normal_form W a s1 -> normal_form W b s2 -> s1 <> s2 ->
  str_is_mat s1 = false -> str_is_mat s2 = false -> not_intervals W s1 s2 ->
  split_tuple s1 None = Ret (SSeq KSet l1) -> split_tuple s2 None = Ret (SSeq KSet l2) ->
  Equivalence (fun x y => v x y = true) ->
  (forall x y, In x l1 -> In y l2 -> pure_to (is_equiv_str W n x y) (v x y)) ->
  distinct_elements l1 d1 -> distinct_elements l2 d2 -> length d1 = length d2 ->
  forall st, fst (is_equiv W (S n) (Some a) (Some b) st) = Ret true <->
             matching (fun x y => v x y = true) d1 d2 [].
Proof. exact (is_equiv_unordered W n a b s1 s2 l1 l2 d1 d2 v). Qed.
Print Assumptions C09_complete.
Example C09_ex : fst (is_equiv (table_world_rev []) 3 (Some (u "a,b,c")) (Some (u "c,a,b")) tt) = Ret true.
Proof.
  rewrite (C09_complete (table_world_rev []) 2 (u "a,b,c") (u "c,a,b") (u "a,b,c") (u "c,a,b")
             [u "a"; u "b"; u "c"] [u "c"; u "a"; u "b"] [u "a"; u "b"; u "c"] [u "c"; u "a"; u "b"] str_eqb);
    side.
  - exists [u "a"; u "b"; u "c"]. split.
    + rewrite app_nil_r. change [u "c"; u "a"; u "b"] with ([u "c"] ++ [u "a"; u "b"]).
      apply Permutation_app_comm.
    + repeat constructor.
  - intro H. exists false. intros []; vm.
  - split.
    + intro x. apply str_eqb_refl.
    + intros x y H. apply str_eqb_eq in H. subst. apply str_eqb_refl.
    + intros x y z H. apply str_eqb_eq in H. subst. exact (fun H => H).
  - intros x y Hx Hy. cbn [In] in Hx, Hy.
    destruct Hx as [<-|[<-|[<-|[]]]], Hy as [<-|[<-|[<-|[]]]]; intros []; vm.
  - split; [|reflexivity]. repeat constructor; cbn [In]; intuition discriminate.
  - split; [|reflexivity]. repeat constructor; cbn [In]; intuition discriminate.
Qed.

(** Without transitivity the verdict depends on the set iteration order. *)
Theorem C09_order_dependence_refuted : exists t a b,
  fst (is_equiv (table_world t) 5 (Some a) (Some b) tt) <>
  fst (is_equiv (table_world_rev t) 5 (Some a) (Some b) tt).
Proof.
  exists [(u "a",u "c");(u "a",u "d");(u "b",u "c")], (u "a,b"), (u "c,d"). vm_compute. discriminate.
Qed.
Print Assumptions C09_order_dependence_refuted.

(** ** C10 *)
Theorem C10_kind_and_arity W n a b s1 s2 k1 l1 k2 l2 :
  ~ equal_up_to_padding is_space a b -> normal_form W a s1 -> normal_form W b s2 -> s1 <> s2 ->
  str_is_mat s1 = false -> str_is_mat s2 = false -> not_intervals W s1 s2 ->
  split_tuple s1 None = Ret (SSeq k1 l1) -> split_tuple s2 None = Ret (SSeq k2 l2) ->
  (k1 <> k2 \/ size_of W k1 l1 <> size_of W k2 l2 /\ ~ In (u "\in") l2) ->
  forall st, fst (is_equiv W (S n) (Some a) (Some b) st) = Ret false.
Proof. exact (is_equiv_reject W n a b s1 s2 k1 l1 k2 l2). Qed.
Print Assumptions C10_kind_and_arity.
(** The back end's state is untouched: it is not consulted (interval rule aside). *)
Theorem C10_no_fallback W rec gt gv k1 l1 k2 l2 :
  str_is_mat gt = false -> str_is_mat gv = false -> gv <> [] -> has_bracket gt = false ->
  split_tuple gt None = Ret (SSeq k1 l1) -> split_tuple gv None = Ret (SSeq k2 l2) ->
  (k1 <> k2 \/ size_of W k1 l1 <> size_of W k2 l2 /\ ~ In (u "\in") l2) ->
  forall st, is_latex_equiv W rec gt gv st = (Ret false, st).
Proof.
  exact (fun M1 M2 Hne Hb S1 S2 H st =>
    eq_trans (latex_no_fallback W rec gt gv M1 M2 Hne (tuple_reject W rec gt gv k1 l1 k2 l2 S1 S2 H) st)
             (f_equal (fun x : bool => if x then bind (possible_intervals W gt gv) (fun p => ret (fst p)) st else (Ret false, st)) Hb)).
Qed.
Print Assumptions C10_no_fallback.
Example C10_ex : fst (is_equiv counting_world 3 (Some (u "(1,2)")) (Some (u "[1,2]")) O) = Ret false.
Proof.
  apply (C10_kind_and_arity counting_world 2 _ _ (u "(1,2)") (u "[1,2]") KTuple [u "1"; u "2"] KList [u "1"; u "2"]);
    side.
  - intros _. exists false. intros st; reflexivity.
  - left; discriminate.
Qed.
Example C10_no_fallback_ex : is_latex_equiv counting_world (fun _ _ => ret true) (u "1,2,3") (u "1,2") O = (Ret false, O).
Proof.
  apply (C10_no_fallback counting_world _ _ _ KSet [u "1"; u "2"; u "3"] KSet [u "1"; u "2"]); side.
  right. split; [neq|]. cbn [In]. intuition discriminate.
Qed.

(** ** C11 *)
Theorem C11_in_disables_arity W n a b s1 s2 k l1 l2 :
  ~ equal_up_to_padding is_space a b -> normal_form W a s1 -> normal_form W b s2 -> s1 <> s2 ->
  str_is_mat s1 = false -> str_is_mat s2 = false -> not_intervals W s1 s2 ->
  k <> KSet -> split_tuple s1 None = Ret (SSeq k l1) -> split_tuple s2 None = Ret (SSeq k l2) ->
  In (u "\in") l2 ->
  (forall i x y, nth_error l1 i = Some x -> nth_error l2 i = Some y ->
                 pure_to (is_equiv_str W n x y) true) ->
  forall st, fst (is_equiv W (S n) (Some a) (Some b) st) = Ret true.
Proof. exact (is_equiv_in_prefix W n a b s1 s2 k l1 l2). Qed.
Print Assumptions C11_in_disables_arity.
Example C11_ex : fst (is_equiv (table_world []) 3 (Some (u "(1,2)")) (Some (u "(1,2,\in,99)")) tt) = Ret true.
Proof.
  apply (C11_in_disables_arity (table_world []) 2 _ _ (u "(1,2)") (u "(1,2,\in,99)") KTuple
           [u "1"; u "2"] [u "1"; u "2"; u "\in"; u "99"]); side.
  - intros _. exists false. intros []; vm.
  - cbn [In]. auto.
  - intros [|[|[|i]]] x y; cbn [nth_error]; intros Hx Hy; try discriminate;
      injection Hx as <-; injection Hy as <-; intros []; vm.
Qed.

(** ** C12 *)
Theorem C12_matrix_rule W rec gt gv l1 l2 (v : pystr -> pystr -> bool) :
  split_matrix gt = Ret (MRows l1) -> split_matrix gv = Ret (MRows l2) ->
  (forall c d x y, In c l1 -> In d l2 -> in_cell x c -> in_cell y d -> pure_to (rec x y) (v x y)) ->
  forall st, exists b, fst (possible_matrix W rec gt gv st) = Ret (b, true) /\
    (b = true <-> pointwise (cell_rel (fun x y => v x y = true)) l1 l2).
Proof. exact (possible_matrix_rows W rec gt gv l1 l2 v). Qed.
Print Assumptions C12_matrix_rule.
Theorem C12_matrix_rule_sound W rec gt gv l1 l2 st sp :
  split_matrix gt = Ret (MRows l1) -> split_matrix gv = Ret (MRows l2) ->
  fst (possible_matrix W rec gt gv st) = Ret (true, sp) ->
  pointwise (cell_rel (fun x y => exists st', fst (rec x y st') = Ret true)) l1 l2.
Proof. exact (possible_matrix_rows_sound W rec gt gv l1 l2 st sp). Qed.
Print Assumptions C12_matrix_rule_sound.
Theorem C12_matrix W n a b s1 s2 l1 l2 sp (v : pystr -> pystr -> bool) :
  ~ equal_up_to_padding is_space a b -> normal_form W a s1 -> normal_form W b s2 -> s1 <> s2 ->
  s2 <> [] -> (str_is_mat s1 || str_is_mat s2 = true) -> not_intervals W s1 s2 ->
  pure_to (possible_tuple W (is_equiv_str W n) s1 s2) (false, sp) ->
  split_matrix s1 = Ret (MRows l1) -> split_matrix s2 = Ret (MRows l2) ->
  (forall c d x y, In c l1 -> In d l2 -> in_cell x c -> in_cell y d -> pure_to (is_equiv_str W n x y) (v x y)) ->
  forall st, fst (is_equiv W (S n) (Some a) (Some b) st) = Ret true <->
             pointwise (cell_rel (fun x y => v x y = true)) l1 l2.
Proof. exact (is_equiv_matrix W n a b s1 s2 l1 l2 sp v). Qed.
Print Assumptions C12_matrix.
Example C12_ex : fst (is_equiv (table_world [(u "x", u "y")]) 3
     (Some (u "\begin{matrix}1&x\\3&4\end{matrix}")) (Some (u "\begin{pmatrix}1&y\\3&4\end{pmatrix}")) tt) = Ret true.
Proof.
  set (W := table_world [(u "x", u "y")]).
  rewrite (C12_matrix W 2 _ _ (u "\begin{matrix}1&x\\3&4\end{matrix}") (u "\begin{pmatrix}1&y\\3&4\end{pmatrix}")
             [CRow [u "1"; u "x"]; CRow [u "3"; u "4"]] [CRow [u "1"; u "y"]; CRow [u "3"; u "4"]] false
             (fun x y => str_eqb x y || in_table [(u "x", u "y")] x y)); side.
  - apply pointwise_Forall2. repeat constructor; apply pointwise_Forall2; repeat constructor.
  - intros H; vm_compute in H; discriminate.
  - intros []; vm.
  - intros c d x y Hc Hd Hx Hy. cbn [In] in Hc, Hd.
    destruct Hc as [<-|[<-|[]]], Hd as [<-|[<-|[]]]; cbn [in_cell In] in Hx, Hy;
    destruct Hx as [<-|[<-|[]]], Hy as [<-|[<-|[]]]; intros []; vm.
Qed.

(** ** C14 *)
Theorem C14_backend_failures_are_rejections W gt gv st :
  fst (are_equal_under_sympy W gt gv st) =
    match fst (equal_with_simplify W gt gv st) with Ret b => Ret b | Raise _ => Ret false end.
Proof.
  unfold are_equal_under_sympy, try_bare, bind. destruct (equal_with_simplify W gt gv st) as [[b|e] st']; reflexivity.
Qed.
Print Assumptions C14_backend_failures_are_rejections.
Theorem C14_only_interval_comparison_escapes W n gt gv st e :
  fst (is_equiv W (S n) gt gv st) = Raise e ->
  is_Exception e = false /\ exists x y st', fst (interval_compare W x y st') = Raise e.
Proof. exact (is_equiv_raises W n gt gv st e). Qed.
Print Assumptions C14_only_interval_comparison_escapes.
Example C14_ex : fst (is_equiv (raising_world (BaseExc 0)) 3 (Some (u "x+1")) (Some (u "y")) tt) = Ret false.
Proof. vm. Qed.

(** Finding: the interval comparison (evaluations.py:94) is outside every bare [except]. *)
Theorem C14_interrupt_escapes_refuted : exists gt gv,
  fst (is_equiv (interval_world (BaseExc 0)) 3 (Some gt) (Some gv) tt) = Raise (BaseExc 0).
Proof. exists (u "(1,2)"), (u "(1,3)"). vm. Qed.
Print Assumptions C14_interrupt_escapes_refuted.
