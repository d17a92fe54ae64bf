(** The symbolic comparison, for every backend. *)
From Coq Require Import String List NArith ZArith Bool Lia Arith.
From Verif Require Import PyStr PyStrTheory Monad MonadTheory Parser.
Import ListNotations.
Local Open Scope mon_scope.

Lemma bind_ret {St A B} (a : A) (f : A -> M St B) st : bind (ret a) f st = f a st.
Proof. reflexivity. Qed.
Lemma bind_step {St A B} (m : M St A) (f : A -> M St B) st a st' : m st = (Ret a, st') -> bind m f st = f a st'.
Proof. intro H. unfold bind. rewrite H. reflexivity. Qed.
Lemma bind_raise {St A B} (m : M St A) (f : A -> M St B) st e st' : m st = (Raise e, st') -> bind m f st = (Raise e, st').
Proof. intro H. unfold bind. rewrite H. reflexivity. Qed.
Lemma pure_inv {St A} (m : M St A) a st : pure_to m a -> exists st', m st = (Ret a, st').
Proof. intro H. specialize (H st). destruct (m st) as [r st']. cbn in H. subst. eauto. Qed.

Section P.
Context {St Ex Ob Sym Num : Type}.
Variable SP : Sympy St Ex Ob Sym Num.
Notation val := (pyval Ex Ob).

(** Comparison of two parses: compute their types and compare, with stack depth [n]. *)
Definition compare (n : nat) (a b : val) : M St bool := typed SP (equal_sympy SP n) a b.

(** ** Parsing never raises *)
Lemma parse_total s st : exists a b c, fst (sympy_parse SP s st) = Ret [a; b; c] /\ (a <> None -> b = None).
Proof.
  unfold sympy_parse. unfold bind at 1.
  assert (T : forall (m : M St (option val)) st, exists a, fst (try_bare m (ret None) st) = Ret a).
  { intros m s0. unfold try_bare. destruct (m s0) as [[a|e] s1]; cbn; eauto. }
  match goal with |- context [try_bare ?m (ret None) st] => destruct (T m st) as [a Ha]; destruct (try_bare m (ret None) st) as [r st1] end.
  cbn in Ha. subst r. unfold bind at 1.
  destruct a as [a|].
  - cbn [ret]. unfold bind at 1. match goal with |- context [try_bare ?m (ret None) st1] => destruct (T m st1) as [c Hc]; destruct (try_bare m (ret None) st1) as [r st2] end.
    cbn in Hc. subst r. exists (Some a), None, c. auto.
  - match goal with |- context [match try_bare ?m (ret None) st1 with _ => _ end] => destruct (T m st1) as [b Hb]; destruct (try_bare m (ret None) st1) as [r st2] end.
    cbn in Hb. subst r. unfold bind at 1. match goal with |- context [try_bare ?m (ret None) st2] => destruct (T m st2) as [c Hc]; destruct (try_bare m (ret None) st2) as [r st3] end.
    cbn in Hc. subst r. exists None, b, c. split; [reflexivity|]. intro H. destruct (H eq_refl).
Qed.

(** ** The pairs of parses *)
Definition parsed (l : list (option val)) : list val := flat_map (fun o => match o with Some v => [v] | None => [] end) l.
(** All these pairs are compared in order, without success. *)
Inductive all_false (cmp : val -> val -> M St bool) : list (val * val) -> St -> St -> Prop :=
| af_nil st : all_false cmp [] st st
| af_cons a b l st st1 st2 : cmp a b st = (Ret false, st1) -> all_false cmp l st1 st2 -> all_false cmp ((a, b) :: l) st st2.
Inductive first_success (cmp : val -> val -> M St bool) (l : list (val * val)) (st : St) : St -> Prop :=
| fs pre a b post st1 st2 : l = pre ++ (a, b) :: post -> all_false cmp pre st st1 -> cmp a b st1 = (Ret true, st2) -> first_success cmp l st st2.
Lemma all_false_app cmp l1 l2 st st' : all_false cmp (l1 ++ l2) st st' <-> exists st1, all_false cmp l1 st st1 /\ all_false cmp l2 st1 st'.
Proof.
  revert st. induction l1 as [|[a b] l1 IH]; intro st; cbn [app].
  - split; [intro H; exists st; split; [constructor|exact H]|intros (st1 & H & H'); inversion H; subst; exact H'].
  - split.
    + intro H. inversion H; subst. apply IH in H6. destruct H6 as (s1 & H1 & H2). exists s1. split; [econstructor; eauto|exact H2].
    + intros (s1 & H1 & H2). inversion H1; subst. econstructor; [eassumption|]. apply IH. eauto.
Qed.
Lemma any_gv_spec cmp g l st st' : any_gv cmp g l st = (Ret true, st') <-> first_success cmp (map (pair g) (parsed l)) st st'.
Proof.
  revert st st'. induction l as [|[v|] l IH]; intros st st'; cbn [any_gv parsed flat_map app map].
  - split; [discriminate|]. intros [pre a b post st1 st2 E _ _]. destruct pre; discriminate.
  - split.
    + intro H. apply bind_inv in H. destruct H as (b & st1 & H1 & H2). destruct b.
      * injection H2 as <-. apply (fs _ _ _ [] g v (map (pair g) (parsed l)) st st1); [reflexivity|constructor|exact H1].
      * apply IH in H2. destruct H2 as [pre a b post st2 st3 E Hf Ht]. apply (fs _ _ _ ((g, v) :: pre) a b post st2 st3); [cbn; f_equal; exact E|econstructor; eauto|exact Ht].
    + intros [pre a b post st1 st2 E Hf Ht]. destruct pre as [|p pre].
      * injection E as <- <- _. inversion Hf; subst. unfold bind. rewrite Ht. reflexivity.
      * injection E as <- E. inversion Hf; subst. match goal with H : cmp _ _ _ = (Ret false, _) |- _ => rewrite (bind_step _ _ _ _ _ H) end. apply IH. econstructor; eauto.
  - apply IH.
Qed.
Lemma any_gv_false cmp g l st st' : any_gv cmp g l st = (Ret false, st') <-> all_false cmp (map (pair g) (parsed l)) st st'.
Proof.
  revert st st'. induction l as [|[v|] l IH]; intros st st'; cbn [any_gv parsed flat_map app map].
  - split; [intros [= <-]; constructor|intro H; inversion H; reflexivity].
  - split.
    + intro H. apply bind_inv in H. destruct H as (b & st1 & H1 & H2). destruct b; [discriminate|]. econstructor; [exact H1|]. apply IH, H2.
    + intro H. inversion H; subst. match goal with H : cmp _ _ _ = (Ret false, _) |- _ => rewrite (bind_step _ _ _ _ _ H) end. apply IH. assumption.
  - apply IH.
Qed.
Lemma list_prod_cons {A B} (a : A) l (l' : list B) : list_prod (a :: l) l' = map (pair a) l' ++ list_prod l l'.
Proof. reflexivity. Qed.
Lemma any_gt_spec cmp l1 l2 st st' : any_gt cmp l1 l2 st = (Ret true, st') <-> first_success cmp (list_prod (parsed l1) (parsed l2)) st st'.
Proof.
  revert st st'. induction l1 as [|[g|] l1 IH]; intros st st'; cbn [any_gt parsed flat_map app].
  - split; [discriminate|]. intros [pre a b post st1 st2 E _ _]. destruct pre; discriminate.
  - fold (parsed l1). rewrite list_prod_cons. split.
    + intro H. apply bind_inv in H. destruct H as (b & st1 & H1 & H2). destruct b.
      * injection H2 as <-. apply any_gv_spec in H1. destruct H1 as [pre a b post s1 s2 E Hf Ht].
        apply (fs _ _ _ pre a b (post ++ list_prod (parsed l1) (parsed l2)) s1 s2); [rewrite E, <- app_assoc; reflexivity|exact Hf|exact Ht].
      * apply any_gv_false in H1. apply IH in H2. destruct H2 as [pre a b post s1 s2 E Hf Ht].
        apply (fs _ _ _ (map (pair g) (parsed l2) ++ pre) a b post s1 s2); [rewrite E, app_assoc; reflexivity|apply all_false_app; eauto|exact Ht].
    + intros [pre a b post s1 s2 E Hf Ht]. apply app_eq_app in E. destruct E as (l & [[E1 E2]|[E1 E2]]).
      * destruct l as [|p l].
        -- rewrite app_nil_r in E1. subst pre. apply any_gv_false in Hf. rewrite (bind_step _ _ _ _ _ Hf). apply IH. apply (fs _ _ _ [] a b post s1 s2); [symmetry; exact E2|constructor|exact Ht].
        -- injection E2 as <- E2. assert (H1 : any_gv cmp g l2 st = (Ret true, s2)) by (apply any_gv_spec; apply (fs _ _ _ pre a b l s1 s2); assumption).
           rewrite (bind_step _ _ _ _ _ H1). reflexivity.
      * subst pre. apply all_false_app in Hf. destruct Hf as (s0 & Hf1 & Hf2). apply any_gv_false in Hf1. rewrite (bind_step _ _ _ _ _ Hf1).
        apply IH. apply (fs _ _ _ l a b post s1 s2); assumption.
  - apply IH.
Qed.
Lemma under_sympy_total n gt gv st : exists b, fst (are_equal_under_sympy_repo SP n gt gv st) = Ret b.
Proof. unfold are_equal_under_sympy_repo, try_bare. match goal with |- context [match ?x with _ => _ end] => destruct x as [[b|e] st'] end; cbn; eauto. Qed.
Lemma under_sympy_spec n gt gv st :
  fst (are_equal_under_sympy_repo SP n gt gv st) = Ret true <->
  exists c1 st1 c2 st2 st3, sympy_parse SP gt st = (Ret c1, st1) /\ sympy_parse SP gv st1 = (Ret c2, st2) /\
    first_success (compare n) (list_prod (parsed c1) (parsed c2)) st2 st3.
Proof.
  unfold are_equal_under_sympy_repo, try_bare, are_equal_with_simplify. split.
  - intro H. match type of H with context [match ?x with _ => _ end] => destruct x as [[b|e] st'] eqn:Eq end; [|discriminate H]. injection H as ->.
    apply bind_inv in Eq. destruct Eq as (b & s1 & H1 & H2). injection H2 as -> ->.
    apply bind_inv in H1. destruct H1 as (c1 & s1 & P1 & H1). apply bind_inv in H1. destruct H1 as (c2 & s2 & P2 & H1).
    exists c1, s1, c2, s2, st'. split; [exact P1|]. split; [exact P2|]. apply any_gt_spec. exact H1.
  - intros (c1 & s1 & c2 & s2 & s3 & P1 & P2 & H). apply any_gt_spec in H.
    rewrite (bind_step _ _ _ true s3); [reflexivity|]. rewrite (bind_step _ _ _ _ _ P1), (bind_step _ _ _ _ _ P2). exact H.
Qed.

(** An exception in the first pair hides all others. *)
Lemma first_raises n gt gv st st1 st2 a c1 b c2 e st3 :
  sympy_parse SP gt st = (Ret (Some a :: c1), st1) -> sympy_parse SP gv st1 = (Ret (Some b :: c2), st2) ->
  compare n a b st2 = (Raise e, st3) -> are_equal_under_sympy_repo SP n gt gv st = (Ret false, st3).
Proof.
  intros P1 P2 H. unfold are_equal_under_sympy_repo, try_bare, are_equal_with_simplify.
  rewrite (bind_raise _ _ st e st3); [reflexivity|]. rewrite (bind_step _ _ _ _ _ P1), (bind_step _ _ _ _ _ P2). cbn [any_gt any_gv].
  apply bind_raise, bind_raise. exact H.
Qed.

(** ** Vectors *)
Lemma vec_all_pure (cmp : val -> val -> M St bool) (v : val -> val -> bool) l1 l2 : length l1 = length l2 ->
  (forall a b, In (a, b) (combine l1 l2) -> pure_to (cmp a b) (v a b)) ->
  exists r, pure_to (vec_all cmp l1 l2) r /\ (r = true <-> Forall2 (fun a b => v a b = true) l1 l2).
Proof.
  revert l2. induction l1 as [|a l1 IH]; intros [|b l2] Hl H; try discriminate.
  - exists true. split; [apply pure_ret|]. split; auto.
  - injection Hl as Hl. destruct (IH l2 Hl) as (r & Hr & Er); [intros; apply H; right; assumption|].
    exists (v a b && r). split.
    + cbn [vec_all]. eapply pure_bind; [apply H; left; reflexivity|]. destruct (v a b); [exact Hr|apply pure_ret].
    + rewrite andb_true_iff, Er. split; [intros [? ?]; constructor; assumption|intro F; inversion F; auto].
Qed.
Lemma Forall2_len {A B} (R : A -> B -> Prop) l1 l2 : Forall2 R l1 l2 -> length l1 = length l2.
Proof. induction 1; cbn; auto. Qed.
Lemma compare_vec n l1 l2 st : compare (S n) (VList l1) (VList l2) st =
  (if negb (Nat.eqb (length l1) (length l2)) then ret false else vec_all (compare n) l1 l2) st.
Proof. reflexivity. Qed.
Lemma vectors n l1 l2 v : (forall a b, In (a, b) (combine l1 l2) -> pure_to (compare n a b) (v a b)) ->
  exists r, pure_to (compare (S n) (VList l1) (VList l2)) r /\ (r = true <-> Forall2 (fun a b => v a b = true) l1 l2).
Proof.
  intro H. destruct (Nat.eqb_spec (length l1) (length l2)) as [Hl|Hl].
  - destruct (vec_all_pure (compare n) v l1 l2 Hl H) as (r & Hr & Er). exists r. split; [|exact Er].
    intro st. rewrite compare_vec, (proj2 (Nat.eqb_eq _ _) Hl). apply Hr.
  - exists false. split; [intro st; rewrite compare_vec, (proj2 (Nat.eqb_neq _ _) Hl); reflexivity|].
    split; [discriminate|]. intro F. apply Forall2_len in F. contradiction.
Qed.
(** Without any assumption on the comparisons: acceptance means that all components were accepted. *)
Lemma vectors_sound n l1 l2 st : fst (compare (S n) (VList l1) (VList l2) st) = Ret true ->
  Forall2 (fun a b => exists s, fst (compare n a b s) = Ret true) l1 l2.
Proof.
  rewrite compare_vec. destruct (Nat.eqb_spec (length l1) (length l2)) as [Hl|Hl]; [|discriminate]. cbn [negb].
  revert l2 st Hl. induction l1 as [|a l1 IH]; intros [|b l2] st Hl H; try discriminate; [constructor|].
  cbn [vec_all] in H. apply bind_inv_fst in H. destruct H as (r & st1 & H1 & H2). destruct r; [|discriminate].
  constructor; [exists st; rewrite H1; reflexivity|]. eapply IH; [injection Hl; auto|exact H2].
Qed.
Lemma vector_not_set n l1 l2 : quiet (compare (S n) (VList l1) (VSet l2)) false /\ quiet (compare (S n) (VSet l1) (VList l2)) false.
Proof. split; intro st; reflexivity. Qed.

(** ** Sets *)
Lemma set_any_pure (cmp : val -> M St bool) (v : val -> bool) l : (forall b, In b l -> pure_to (cmp b) (v b)) ->
  pure_to (set_any cmp l) (existsb v l).
Proof.
  induction l as [|b l IH]; intro H; [apply pure_ret|]. cbn [set_any existsb]. eapply pure_bind; [apply H; left; reflexivity|].
  destruct (v b); [apply pure_ret|]. apply IH. intros; apply H; right; assumption.
Qed.
Lemma set_all_pure rec (ty : val -> atype) (v : val -> val -> bool) l1 l2 :
  (forall a, In a l1 \/ In a l2 -> pure_to (get_sympy_type SP a) (ty a)) ->
  (forall a b, In a l1 -> In b l2 -> pure_to (rec a b (ty a) (ty b)) (v a b)) ->
  pure_to (set_all SP rec l1 l2) (forallb (fun a => existsb (v a) l2) l1).
Proof.
  intros Ht. induction l1 as [|a l1 IH]; intro H; [apply pure_ret|]. cbn [set_all forallb].
  eapply pure_bind; [apply Ht; left; left; reflexivity|]. eapply pure_bind.
  - apply (set_any_pure _ (v a)). intros b Hb. eapply pure_bind; [apply Ht; right; exact Hb|]. apply H; [left; reflexivity|exact Hb].
  - destruct (existsb (v a) l2); [|apply pure_ret]. apply IH; [intros x [Hx|Hx]; apply Ht; [left; right|right]; assumption|].
    intros; apply H; [right|]; assumption.
Qed.
Lemma sets n l1 l2 (ty : val -> atype) (v : val -> val -> bool) :
  (forall a, In a l1 \/ In a l2 -> pure_to (get_sympy_type SP a) (ty a)) ->
  (forall a b, In a l1 -> In b l2 -> pure_to (equal_sympy SP n a b (ty a) (ty b)) (v a b)) ->
  exists r, pure_to (compare (S n) (VSet l1) (VSet l2)) r /\
    (r = true <-> length l1 = length l2 /\ forall a, In a l1 -> exists b, In b l2 /\ v a b = true).
Proof.
  intros Ht H. pose proof (set_all_pure (equal_sympy SP n) ty v l1 l2 Ht H) as P.
  exists (Nat.eqb (length l1) (length l2) && forallb (fun a => existsb (v a) l2) l1). split.
  - intro st. change (compare (S n) (VSet l1) (VSet l2) st) with
      ((if negb (Nat.eqb (length l1) (length l2)) then ret false else set_all SP (equal_sympy SP n) l1 l2) st).
    destruct (Nat.eqb (length l1) (length l2)); [apply P|reflexivity].
  - rewrite andb_true_iff, Nat.eqb_eq, forallb_forall. split; intros [Hl Hc]; (split; [exact Hl|]); intros a Ha.
    + apply existsb_exists. apply Hc, Ha.
    + apply existsb_exists. destruct (Hc a Ha) as (b & Hb & Hv). exists b. auto.
Qed.
(** No assumption: acceptance means covering. *)
Lemma sets_sound n l1 l2 st : fst (compare (S n) (VSet l1) (VSet l2) st) = Ret true ->
  length l1 = length l2 /\ forall a, In a l1 -> exists b t1 t2 s, In b l2 /\ fst (equal_sympy SP n a b t1 t2 s) = Ret true.
Proof.
  change (compare (S n) (VSet l1) (VSet l2) st) with
      ((if negb (Nat.eqb (length l1) (length l2)) then ret false else set_all SP (equal_sympy SP n) l1 l2) st).
  destruct (Nat.eqb_spec (length l1) (length l2)) as [Hl|Hl]; [|discriminate]. cbn [negb]. intro H. split; [exact Hl|]. clear Hl.
  revert st H. induction l1 as [|a l1 IH]; intros st H x Hx; [destruct Hx|]. cbn [set_all] in H.
  apply bind_inv_fst in H. destruct H as (t1 & st1 & H1 & H). apply bind_inv_fst in H. destruct H as (r & st2 & H2 & H).
  destruct r; [|discriminate]. destruct Hx as [<-|Hx]; [|apply (IH _ H x Hx)].
  clear H IH. revert st1 H1 H2. generalize l2 as l. induction l as [|b l IHl]; intros st1 H1 H2; [discriminate|]. cbn [set_any] in H2.
  apply bind_inv in H2. destruct H2 as (r & st3 & H3 & H4). destruct r.
  - apply bind_inv in H3. destruct H3 as (t2 & st4 & H5 & H6). exists b, t1, t2, st4. split; [left; reflexivity|]. rewrite H6. reflexivity.
  - assert (G : exists b0 t0 t2 s, In b0 l /\ fst (equal_sympy SP n a b0 t0 t2 s) = Ret true).
    { clear -H4. revert st3 H4. induction l as [|c l IH]; intros st3 H; [discriminate|]. cbn [set_any] in H.
      apply bind_inv in H. destruct H as (r & s3 & H3 & H4'). destruct r.
      - apply bind_inv in H3. destruct H3 as (t2 & st4 & H5 & H6). exists c, t1, t2, st4. split; [left; reflexivity|]. rewrite H6. reflexivity.
      - destruct (IH _ H4') as (b & t & t2 & s & Hb & He). exists b, t, t2, s. split; [right; exact Hb|exact He]. }
    destruct G as (b0 & t0 & t2 & s & Hb & He). exists b0, t0, t2, s. split; [right; exact Hb|exact He].
Qed.

(** ** Inequalities *)
(** The sides in increasing order *)
Definition sides (op : relop) (l r : val) : option (val * val) :=
  match op with OpLt | OpLe => Some (l, r) | OpGt | OpGe => Some (r, l) | OpNe => None end.
Definition strict (op : relop) : option bool :=
  match op with OpLt | OpGt => Some true | OpLe | OpGe => Some false | OpNe => None end.
Lemma inequalities n o1 l1 r1 o2 l2 r2 a1 b1 a2 b2 st : strict o1 = strict o2 -> sides o1 l1 r1 = Some (a1, b1) -> sides o2 l2 r2 = Some (a2, b2) ->
  compare (S n) (VRel o1 l1 r1) (VRel o2 l2 r2) st =
  (x <- op_sub _ _ _ _ _ SP a1 b1 ;; y <- op_sub _ _ _ _ _ SP a2 b2 ;; compare n x y) st.
Proof. intros H H1 H2. destruct o1, o2; try discriminate; injection H1 as <- <-; injection H2 as <- <-; reflexivity. Qed.
Lemma uncomparable n o1 l1 r1 o2 l2 r2 st : strict o1 <> strict o2 \/ strict o1 = None ->
  exists e, compare (S n) (VRel o1 l1 r1) (VRel o2 l2 r2) st = (Raise e, st) /\ is_Exception e = true.
Proof. intros H. destruct o1, o2; cbn in H; try (exfalso; intuition congruence); (eexists; split; [reflexivity|reflexivity]). Qed.
Lemma strictness n o1 l1 r1 o2 l2 r2 st : strict o1 <> strict o2 -> fst (compare n (VRel o1 l1 r1) (VRel o2 l2 r2) st) <> Ret true.
Proof.
  intros H. destruct n as [|n]; [discriminate|]. destruct (uncomparable n o1 l1 r1 o2 l2 r2 st (or_introl H)) as (e & -> & _). discriminate.
Qed.
Lemma relations_rejected n gt gv st st1 st2 o1 l1 r1 c1 o2 l2 r2 c2 :
  sympy_parse SP gt st = (Ret (Some (VRel o1 l1 r1) :: c1), st1) -> sympy_parse SP gv st1 = (Ret (Some (VRel o2 l2 r2) :: c2), st2) ->
  strict o1 <> strict o2 \/ strict o1 = None -> are_equal_under_sympy_repo SP (S n) gt gv st = (Ret false, st2).
Proof.
  intros P1 P2 H. destruct (uncomparable n o1 l1 r1 o2 l2 r2 st2 H) as (e & E & _). exact (first_raises _ _ _ _ _ _ _ _ _ _ _ _ P1 P2 E).
Qed.
Definition mirror (op : relop) : relop := match op with OpLt => OpGt | OpLe => OpGe | OpGt => OpLt | OpGe => OpLe | OpNe => OpNe end.
Lemma mirror_same n o1 l1 r1 o2 l2 r2 st : o1 <> OpNe -> o2 <> OpNe ->
  fst (compare (S n) (VRel (mirror o1) r1 l1) (VRel o2 l2 r2) st) = fst (compare (S n) (VRel o1 l1 r1) (VRel o2 l2 r2) st) /\
  fst (compare (S n) (VRel o1 l1 r1) (VRel (mirror o2) r2 l2) st) = fst (compare (S n) (VRel o1 l1 r1) (VRel o2 l2 r2) st).
Proof. intros H1 H2. destruct o1, o2; try contradiction; split; reflexivity. Qed.

(** ** Equations *)
Lemma equations n l1 r1 l2 r2 st st' : get_sympy_type SP (VEq l1 r1) st = (Ret TEqul, st') ->
  forall st'', get_sympy_type SP (VEq l2 r2) st' = (Ret TEqul, st'') ->
  compare (S n) (VEq l1 r1) (VEq l2 r2) st =
  (x <- op_sub _ _ _ _ _ SP l1 r1 ;; y <- op_sub _ _ _ _ _ SP l2 r2 ;;
   tx <- get_sympy_type SP x ;; ty <- get_sympy_type SP y ;;
   b <- equal_sympy SP n x y tx ty ;;
   if b then ret true else z <- op_neg _ _ _ _ _ SP x ;; equal_sympy SP n z y tx ty) st''.
Proof. intros H1 st'' H2. unfold compare, typed. rewrite (bind_step _ _ _ _ _ H1), (bind_step _ _ _ _ _ H2). reflexivity. Qed.
Lemma equations_pure n l1 r1 l2 r2 x y z tx ty (v : val -> val -> bool) :
  pure_to (get_sympy_type SP (VEq l1 r1)) TEqul -> pure_to (get_sympy_type SP (VEq l2 r2)) TEqul ->
  pure_to (op_sub _ _ _ _ _ SP l1 r1) x -> pure_to (op_sub _ _ _ _ _ SP l2 r2) y -> pure_to (op_neg _ _ _ _ _ SP x) z ->
  pure_to (get_sympy_type SP x) tx -> pure_to (get_sympy_type SP y) ty ->
  pure_to (equal_sympy SP n x y tx ty) (v x y) -> pure_to (equal_sympy SP n z y tx ty) (v z y) ->
  pure_to (compare (S n) (VEq l1 r1) (VEq l2 r2)) (v x y || v z y).
Proof.
  intros T1 T2 S1 S2 Nx Tx Ty Vx Vz st. destruct (pure_inv _ _ st T1) as [st1 E1]. destruct (pure_inv _ _ st1 T2) as [st2 E2].
  rewrite (equations n l1 r1 l2 r2 st st1 E1 st2 E2). revert st2 E2. intros st2 _. revert st2.
  change (pure_to (x0 <- op_sub _ _ _ _ _ SP l1 r1 ;; y0 <- op_sub _ _ _ _ _ SP l2 r2 ;;
   tx0 <- get_sympy_type SP x0 ;; ty0 <- get_sympy_type SP y0 ;;
   b <- equal_sympy SP n x0 y0 tx0 ty0 ;;
   if b then ret true else z0 <- op_neg _ _ _ _ _ SP x0 ;; equal_sympy SP n z0 y0 tx0 ty0) (v x y || v z y)).
  do 4 (eapply pure_bind; [eassumption|]). eapply pure_bind; [exact Vx|]. destruct (v x y); [apply pure_ret|].
  eapply pure_bind; [exact Nx|exact Vz].
Qed.

(** ** Function definitions *)
Definition rhs_of (a : val) : option val := match a with VEq _ r => Some r | _ => None end.
(** What is compared instead of a definition: its right-hand side, with the type of that. *)
Definition defined (a : val) (t : atype) : M St (val * atype) :=
  match rhs_of a with Some r => t' <- get_sympy_type SP r ;; ret (r, t') | None => ret (a, t) end.
Lemma functions n a b t1 t2 : t1 = TFunc \/ t2 = TFunc -> forall st,
  equal_sympy SP (S n) a b t1 t2 st =
  (x <- defined a t1 ;; y <- defined b t2 ;; equal_sympy SP n (fst x) (fst y) (snd x) (snd y)) st.
Proof.
  intros Hf st. cbn [equal_sympy]. generalize (equal_sympy SP n). intro rec. unfold body, defined, rhs_of.
  destruct Hf as [->| ->]; [destruct t2|destruct t1]; destruct a, b; reflexivity.
Qed.
(** The left-hand sides do not matter. *)
Lemma names_ignored n l1 l1' r1 l2 l2' r2 t1 t2 st : t1 = TFunc \/ t2 = TFunc ->
  equal_sympy SP (S n) (VEq l1 r1) (VEq l2 r2) t1 t2 st = equal_sympy SP (S n) (VEq l1' r1) (VEq l2' r2) t1 t2 st.
Proof. intro H. rewrite !(functions n _ _ t1 t2 H). reflexivity. Qed.

(** ** Complex numbers *)
Lemma complex n e1 e2 a1 b1 a2 b2 ta1 tb1 ta2 tb2 x y :
  pure_to (get_sympy_type SP (VExpr e1)) TCplx -> pure_to (get_sympy_type SP (VExpr e2)) TCplx ->
  pure_to (op_re _ _ _ _ _ SP (VExpr e1)) a1 -> pure_to (op_im _ _ _ _ _ SP (VExpr e1)) b1 ->
  pure_to (op_re _ _ _ _ _ SP (VExpr e2)) a2 -> pure_to (op_im _ _ _ _ _ SP (VExpr e2)) b2 ->
  pure_to (get_sympy_type SP a1) ta1 -> pure_to (get_sympy_type SP b1) tb1 -> pure_to (get_sympy_type SP a2) ta2 -> pure_to (get_sympy_type SP b2) tb2 ->
  pure_to (equal_sympy SP n a1 a2 ta1 ta2) x -> pure_to (equal_sympy SP n b1 b2 tb1 tb2) y ->
  pure_to (compare (S n) (VExpr e1) (VExpr e2)) (x && y).
Proof.
  intros T1 T2 R1 I1 R2 I2 U1 V1 U2 V2 X Y. unfold compare, typed. eapply pure_bind; [exact T1|]. eapply pure_bind; [exact T2|].
  cbn [equal_sympy]. revert X Y. generalize (equal_sympy SP n). intros rec X Y. unfold body. cbn -[get_sympy_type].
  eapply pure_bind; [exact R1|]. eapply pure_bind; [exact I1|]. eapply pure_bind; [exact R2|]. eapply pure_bind; [exact I2|].
  eapply pure_bind; [exact U1|]. eapply pure_bind; [exact V1|]. eapply pure_bind; [exact U2|]. eapply pure_bind; [exact V2|].
  eapply pure_bind; [exact X|]. destruct x; [exact Y|apply pure_ret].
Qed.

(** ** Matrices *)
Lemma mat_all_pure (cmp : val -> val -> M St bool) (v : val -> val -> bool) f g ps :
  (forall i j, In (i, j) ps -> pure_to (cmp (f i j) (g i j)) (v (f i j) (g i j))) ->
  pure_to (mat_all cmp f g ps) (forallb (fun p => v (f (fst p) (snd p)) (g (fst p) (snd p))) ps).
Proof.
  induction ps as [|[i j] ps IH]; intro H; [apply pure_ret|]. cbn [mat_all forallb fst snd].
  eapply pure_bind; [apply H; left; reflexivity|]. destruct (v (f i j) (g i j)); [|apply pure_ret]. apply IH. intros; apply H; right; assumption.
Qed.
Lemma in_positions r c i j : In (i, j) (positions r c) <-> i < r /\ j < c.
Proof. unfold positions. rewrite in_prod_iff, !in_seq. lia. Qed.
Lemma matrices_typed n r1 c1 f r2 c2 g (v : val -> val -> bool) :
  (forall i j, i < r1 -> j < c1 -> pure_to (compare n (f i j) (g i j)) (v (f i j) (g i j))) ->
  exists b, pure_to (equal_sympy SP (S n) (VMat r1 c1 f) (VMat r2 c2 g) TMat TMat) b /\
    (b = true <-> r1 = r2 /\ c1 = c2 /\ forall i j, i < r1 -> j < c1 -> v (f i j) (g i j) = true).
Proof.
  intro H. assert (P := mat_all_pure (compare n) v f g (positions r1 c1)).
  assert (Hps : forall i j, In (i, j) (positions r1 c1) -> pure_to (compare n (f i j) (g i j)) (v (f i j) (g i j))).
  { intros i j Hij. apply in_positions in Hij. apply H; lia. }
  specialize (P Hps).
  exists (Nat.eqb r2 r1 && Nat.eqb c2 c1 && forallb (fun p => v (f (fst p) (snd p)) (g (fst p) (snd p))) (positions r1 c1)). split.
  - intro st. change (equal_sympy SP (S n) (VMat r1 c1 f) (VMat r2 c2 g) TMat TMat st) with
      ((if negb (Nat.eqb r2 r1) || negb (Nat.eqb c2 c1) then ret false else mat_all (compare n) f g (positions r1 c1)) st).
    destruct (Nat.eqb r2 r1), (Nat.eqb c2 c1); try reflexivity. apply P.
  - rewrite !andb_true_iff, !Nat.eqb_eq, forallb_forall. split.
    + intros [[E1 E2] F]. repeat split; auto. intros i j Hi Hj. apply (F (i, j)), in_positions. auto.
    + intros (E1 & E2 & F). repeat split; auto. intros [i j] Hij. apply in_positions in Hij. apply F; tauto.
Qed.
Lemma matrices n r1 c1 f r2 c2 g (v : val -> val -> bool) :
  (forall i j, i < r1 -> j < c1 -> pure_to (compare n (f i j) (g i j)) (v (f i j) (g i j))) ->
  exists b, pure_to (compare (S n) (VMat r1 c1 f) (VMat r2 c2 g)) b /\
    (b = true <-> r1 = r2 /\ c1 = c2 /\ forall i j, i < r1 -> j < c1 -> v (f i j) (g i j) = true).
Proof. apply matrices_typed. Qed.

(** A flat list against a matrix *)
Definition nth_entry (l : list val) (i : nat) : val := nth i l VNone.
(** [Matrix(l)] of a flat list is a column. *)
Definition column (l : list val) : Prop := exists f, pure_to (op_matrix _ _ _ _ _ SP l) (length l, 1, f) /\ forall i, i < length l -> f i 0 = nth_entry l i.
Lemma try_pure {A} (m h : M St A) a : pure_to m a -> pure_to (try_bare m h) a.
Proof. apply pure_try_bare. Qed.
Lemma try_raise {A} (m h : M St A) a : (forall st, exists e st', m st = (Raise e, st')) -> pure_to h a -> pure_to (try_bare m h) a.
Proof. intros H Hh st. destruct (H st) as (e & st' & E). unfold try_bare. rewrite E. apply Hh. Qed.
(** The matrix the list is read as, if there is one *)
Lemma list_to_mat_spec l r c : column l ->
  (exists g, pure_to (list_to_mat SP l r c) (VMat r c g) /\ ((r = length l /\ c = 1 /\ forall i, i < length l -> g i 0 = nth_entry l i) \/
                                                             (r = 1 /\ c = length l /\ forall i, i < length l -> g 0 i = nth_entry l i))) \/
  (exists g m, pure_to (list_to_mat SP l r c) (VMat 1 m g) /\ r = 1 /\ c = 1 /\ m = length l /\ m <> 1) \/
  (forall st, exists e st', list_to_mat SP l r c st = (Raise e, st')) /\ ~ (r = length l /\ c = 1) /\ ~ (r = 1 /\ c = length l).
Proof.
  intros (f & Hf & Ef).
  assert (Q : forall st, exists st', list_to_mat SP l r c st =
    (if Nat.eqb (length l) r && Nat.eqb 1 c then ret (VMat (length l) 1 f)
     else if (Nat.eqb r 1 && Nat.eqb (length l) c) || (Nat.eqb c 1 && Nat.eqb 1 r) then ret (VMat 1 (length l) (fun i j => f j i)) else raise ValueError) st').
  { intro st. destruct (pure_inv _ _ st Hf) as [st' Es]. exists st'. unfold list_to_mat. rewrite (bind_step _ _ _ _ _ Es). reflexivity. }
  destruct (Nat.eqb_spec (length l) r) as [E1|E1]; destruct (Nat.eqb_spec 1 c) as [E2|E2]; cbn [andb] in Q.
  - left. exists f. split; [|left; auto]. subst r c. intro st. destruct (Q st) as [st' ->]. reflexivity.
  - right; right. split; [|split; intros [? ?]; lia].
    intro st. destruct (Q st) as [st' Es]. exists ValueError, st'. rewrite Es.
    assert (Nat.eqb r 1 && Nat.eqb (length l) c = false) as -> by (apply andb_false_iff; rewrite !Nat.eqb_neq; lia).
    assert (Nat.eqb c 1 && Nat.eqb 1 r = false) as -> by (apply andb_false_iff; rewrite !Nat.eqb_neq; lia). reflexivity.
  - destruct (Nat.eqb_spec 1 r) as [E3|E3].
    + right; left. exists (fun i j => f j i), (length l). subst. split; [|repeat split; lia].
      intro st. destruct (Q st) as [st' ->]. rewrite orb_true_r. reflexivity.
    + right; right. split; [|split; intros [? ?]; lia]. intro st. destruct (Q st) as [st' Es]. exists ValueError, st'. rewrite Es.
      assert (Nat.eqb r 1 = false) as -> by (apply Nat.eqb_neq; lia). rewrite andb_false_r. reflexivity.
  - destruct (Nat.eqb_spec r 1) as [E3|E3]; destruct (Nat.eqb_spec (length l) c) as [E4|E4]; cbn [andb orb] in Q;
      try (assert (X : Nat.eqb c 1 = false) by (apply Nat.eqb_neq; lia)).
    + left. exists (fun i j => f j i). subst r c. split; [|right; auto]. intro st. destruct (Q st) as [st' ->]. reflexivity.
    + right; right. split; [|split; intros [? ?]; lia]. intro st. destruct (Q st) as [st' Es]. exists ValueError, st'. rewrite Es, X. reflexivity.
    + right; right. split; [|split; intros [? ?]; lia]. intro st. destruct (Q st) as [st' Es]. exists ValueError, st'. rewrite Es, X. reflexivity.
    + right; right. split; [|split; intros [? ?]; lia]. intro st. destruct (Q st) as [st' Es]. exists ValueError, st'. rewrite Es, X. reflexivity.
Qed.
(** [entry k] of a matrix with one row or one column *)
Definition line (c : nat) (f : nat -> nat -> val) (k : nat) : val := if Nat.eqb c 1 then f k 0 else f 0 k.
Lemma list_matrix n r c f l (v : val -> val -> bool) : column l ->
  (forall i j k, i < r -> j < c -> k < length l -> pure_to (compare n (f i j) (nth_entry l k)) (v (f i j) (nth_entry l k))) ->
  exists b, pure_to (compare (S (S n)) (VMat r c f) (VList l)) b /\
    (b = true <-> ((r = length l /\ c = 1) \/ (r = 1 /\ c = length l)) /\ forall k, k < length l -> v (line c f k) (nth_entry l k) = true).
Proof.
  intros Hc H.
  assert (Q : forall st, compare (S (S n)) (VMat r c f) (VList l) st =
    try_bare (m <- list_to_mat SP l r c ;; equal_sympy SP (S n) (VMat r c f) m TMat TMat) (ret false) st) by reflexivity.
  destruct (list_to_mat_spec l r c Hc) as [(g & Hg & Hs)|[(g & m & Hg & -> & -> & -> & Hm)|(He & N1 & N2)]].
  - destruct (matrices_typed n r c f r c g v) as (b & Pb & Eb).
    { intros i j Hi Hj. destruct Hs as [(-> & -> & Hs)|(-> & -> & Hs)].
      - assert (j = 0) as -> by lia. rewrite Hs by exact Hi. apply H; lia.
      - assert (i = 0) as -> by lia. rewrite Hs by exact Hj. apply H; lia. }
    exists b. split; [intro st; rewrite Q; revert st; apply try_pure; eapply pure_bind; [exact Hg|exact Pb]|].
    rewrite Eb. destruct Hs as [(Er & Ec & Hs)|(Er & Ec & Hs)].
    + split.
      * intros (_ & _ & F). split; [auto|]. intros k Hk. unfold line. rewrite Ec, Nat.eqb_refl, <- Hs by exact Hk. apply F; lia.
      * intros (_ & F). repeat split. intros i j Hi Hj. assert (j = 0) as -> by lia. specialize (F i ltac:(lia)). unfold line in F. rewrite Ec, Nat.eqb_refl in F.
        rewrite Hs by lia. exact F.
    + split.
      * intros (_ & _ & F). split; [auto|]. intros k Hk. unfold line. destruct (Nat.eqb_spec c 1) as [E1|E1].
        -- assert (k = 0) as -> by lia. rewrite <- Hs by exact Hk. apply F; lia.
        -- rewrite <- Hs by exact Hk. apply F; lia.
      * intros (_ & F). repeat split. intros i j Hi Hj. assert (i = 0) as -> by lia. specialize (F j ltac:(lia)). unfold line in F. rewrite Hs by lia.
        destruct (Nat.eqb_spec c 1) as [E1|E1]; [assert (j = 0) as -> by lia|]; exact F.
  - exists false. split.
    + intro st. rewrite Q. revert st. apply try_pure. eapply pure_bind; [exact Hg|].
      intro st. change (equal_sympy SP (S n) (VMat 1 1 f) (VMat 1 (length l) g) TMat TMat st) with
        ((if negb (Nat.eqb 1 1) || negb (Nat.eqb (length l) 1) then ret false else mat_all (compare n) f g (positions 1 1)) st).
      rewrite (proj2 (Nat.eqb_neq _ _) Hm). reflexivity.
    + split; [discriminate|]. intros [[[? ?]|[? ?]] _]; congruence.
  - exists false. split.
    + intro st. rewrite Q. revert st. apply try_raise; [|apply pure_ret]. intro st. destruct (He st) as (e & st' & Ee). exists e, st'.
      apply bind_raise. exact Ee.
    + split; [discriminate|]. intros [[?|?] _]; [destruct N1|destruct N2]; assumption.
Qed.
Lemma matrix_list n r c f l (v : val -> val -> bool) : column l ->
  (forall i j k, i < r -> j < c -> k < length l -> pure_to (compare n (nth_entry l k) (f i j)) (v (nth_entry l k) (f i j))) ->
  exists b, pure_to (compare (S (S n)) (VList l) (VMat r c f)) b /\
    (b = true <-> ((r = length l /\ c = 1) \/ (r = 1 /\ c = length l)) /\ forall k, k < length l -> v (nth_entry l k) (line c f k) = true).
Proof.
  intros Hc H.
  assert (Q : forall st, compare (S (S n)) (VList l) (VMat r c f) st =
    try_bare (m <- list_to_mat SP l r c ;; equal_sympy SP (S n) m (VMat r c f) TMat TMat) (ret false) st) by reflexivity.
  destruct (list_to_mat_spec l r c Hc) as [(g & Hg & Hs)|[(g & m & Hg & -> & -> & -> & Hm)|(He & N1 & N2)]].
  - destruct (matrices_typed n r c g r c f v) as (b & Pb & Eb).
    { intros i j Hi Hj. destruct Hs as [(-> & -> & Hs)|(-> & -> & Hs)].
      - assert (j = 0) as -> by lia. rewrite Hs by exact Hi. apply H; lia.
      - assert (i = 0) as -> by lia. rewrite Hs by exact Hj. apply H; lia. }
    exists b. split; [intro st; rewrite Q; revert st; apply try_pure; eapply pure_bind; [exact Hg|exact Pb]|].
    rewrite Eb. destruct Hs as [(Er & Ec & Hs)|(Er & Ec & Hs)].
    + split.
      * intros (_ & _ & F). split; [auto|]. intros k Hk. unfold line. rewrite Ec, Nat.eqb_refl, <- Hs by exact Hk. apply F; lia.
      * intros (_ & F). repeat split. intros i j Hi Hj. assert (j = 0) as -> by lia. specialize (F i ltac:(lia)). unfold line in F. rewrite Ec, Nat.eqb_refl in F.
        rewrite Hs by lia. exact F.
    + split.
      * intros (_ & _ & F). split; [auto|]. intros k Hk. unfold line. destruct (Nat.eqb_spec c 1) as [E1|E1].
        -- assert (k = 0) as -> by lia. rewrite <- Hs by exact Hk. apply F; lia.
        -- rewrite <- Hs by exact Hk. apply F; lia.
      * intros (_ & F). repeat split. intros i j Hi Hj. assert (i = 0) as -> by lia. specialize (F j ltac:(lia)). unfold line in F. rewrite Hs by lia.
        destruct (Nat.eqb_spec c 1) as [E1|E1]; [assert (j = 0) as -> by lia|]; exact F.
  - exists false. split.
    + intro st. rewrite Q. revert st. apply try_pure. eapply pure_bind; [exact Hg|].
      intro st. change (equal_sympy SP (S n) (VMat 1 (length l) g) (VMat 1 1 f) TMat TMat st) with
        ((if negb (Nat.eqb 1 1) || negb (Nat.eqb 1 (length l)) then ret false else mat_all (compare n) g f (positions 1 (length l))) st).
      rewrite (proj2 (Nat.eqb_neq 1 (length l)) (not_eq_sym Hm)). reflexivity.
    + split; [discriminate|]. intros [[[? ?]|[? ?]] _]; congruence.
  - exists false. split.
    + intro st. rewrite Q. revert st. apply try_raise; [|apply pure_ret]. intro st. destruct (He st) as (e & st' & Ee). exists e, st'.
      apply bind_raise. exact Ee.
    + split; [discriminate|]. intros [[?|?] _]; [destruct N1|destruct N2]; assumption.
Qed.
End P.
