(** Answers nested more deeply than the call stack allows. *)
From Coq Require Import String List NArith ZArith Bool Lia Arith.
From Verif Require Import PyStr PyStrTheory Spec NumTheory Regex RegexTheory Normalize NormTheory NormNum Monad MonadTheory Split SplitTheory Eval EvalTheory EvalTheory2 NormAlg Terminate Demo.
Import ListNotations.
Local Open Scope N_scope.

(** ((...(c,z)...,z),z) *)
Fixpoint nest (k : nat) (c : pystr) : pystr := match k with O => c | S k' => u "(" ++ nest k' c ++ u ",z)" end.
Definition letters : pystr := u "xwz(),".
Lemma nest_letters c k : incl c letters -> incl (nest k c) letters.
Proof.
  intro H. induction k as [|k IH]; [exact H|]. cbn [nest]. intros x Hx. apply in_app_or in Hx.
  assert (G : forall l, forallb (mem_cp letters) l = true -> In x l -> In x letters).
  { intros l Hl Hi. rewrite forallb_forall in Hl. apply mem_cp_spec, Hl, Hi. }
  destruct Hx as [Hx|Hx]; [revert Hx; apply G; reflexivity|]. apply in_app_or in Hx. destruct Hx as [Hx|Hx]; [auto|]. revert Hx. apply G. reflexivity.
Qed.
Lemma letters_algebra : incl letters algebra.
Proof. intros x Hx. apply mem_cp_spec. revert x Hx. apply forallb_forall. vm_compute. reflexivity. Qed.
Definition leaf (c : pystr) : Prop := c = u "x" \/ c = u "w".
Lemma leaf_letters c : leaf c -> incl c letters.
Proof. intros [->| ->] x Hx; apply mem_cp_spec; revert x Hx; apply forallb_forall; reflexivity. Qed.
Lemma nest_algebraic c k : leaf c -> algebraic (nest k c).
Proof.
  intro H. split; [intros x Hx; apply letters_algebra, (nest_letters c k (leaf_letters c H)), Hx|].
  destruct k as [|k].
  - destruct H as [->| ->]; [exists 120|exists 119]; (split; [left; reflexivity|apply mem_cp_spec; reflexivity]).
  - exists 40. split; [left; reflexivity|]. apply mem_cp_spec. reflexivity.
Qed.
Lemma leaf_atomic c : leaf c -> atomic c.
Proof.
  intro H. split; [exact (nest_algebraic c 0 H)|]. intros x Hx Hi. destruct H as [->| ->]; destruct Hx as [<-|[]]; apply mem_cp_spec in Hi; discriminate.
Qed.
Lemma well_nested_one c : balance [c] = 0%Z -> well_nested [c].
Proof. intro H. split; [exact H|]. intros [|x [|y p]] q E; [cbn; lia|injection E as <- _; lia|discriminate]. Qed.
Lemma well_nested_wrap m : well_nested m -> well_nested (40 :: m ++ [41]).
Proof.
  intros [B P]. split; [rewrite balance_cons, balance_app, B; reflexivity|]. intros [|x p] q E; [cbn; lia|]. injection E as <- E.
  rewrite balance_cons. change (balance [40]) with 1%Z. destruct (app_eq_app _ _ _ _ E) as (r & [[Er _]|[-> Er]]); [specialize (P p r Er); lia|].
  rewrite balance_app, B. destruct r as [|y [|y' r]]; [cbn; lia|injection Er as <- _; cbn; lia|discriminate].
Qed.
Lemma nest_wrap k c : nest (S k) c = wrap KTuple (join [44] [nest k c; u "z"]).
Proof.
  unfold wrap. cbn [pair_of fst snd]. change (join [44] [nest k c; u "z"]) with (nest k c ++ [44] ++ u "z"). cbn [nest]. rewrite <- (app_assoc (nest k c)). reflexivity.
Qed.
Lemma leaf_balance c : leaf c -> balance c = 0%Z /\ well_nested c.
Proof. intros [->| ->]; (split; [reflexivity|apply well_nested_one; reflexivity]). Qed.
Lemma nest_well c k : leaf c -> well_nested (nest k c).
Proof.
  intro H. induction k as [|k IH]; [exact (proj2 (leaf_balance c H))|]. rewrite nest_wrap. apply (well_nested_wrap (join [44] [nest k c; u "z"])).
  apply well_nested_join. repeat constructor; try apply IH. cbn. intros [|x [|y p]] q E; [cbn; lia|injection E as <- _; cbn; lia|discriminate].
Qed.
Lemma nest_comma c k : leaf c -> ~ top_comma (nest k c).
Proof.
  intros H (p & q & E & B). destruct k as [|k].
  - destruct H as [->| ->]; destruct p as [|x [|y p]]; discriminate.
  - rewrite nest_wrap in E. unfold wrap in E. cbn [pair_of fst snd] in E. destruct p as [|x p]; [discriminate|]. injection E as <- E.
    rewrite balance_cons in B. change (balance [40]) with 1%Z in B. pose proof (nest_well c k H) as [_ W].
    assert (Wj : well_nested (join [44] [nest k c; u "z"])).
    { apply well_nested_join. constructor; [apply nest_well, H|]. constructor; [apply well_nested_one; reflexivity|constructor]. }
    destruct Wj as [_ Wj]. destruct (app_eq_app _ _ _ _ E) as (r & [[Er _]|[-> Er]]); [specialize (Wj p r Er); lia|].
    destruct r as [|y r]; [discriminate|destruct r; discriminate].
Qed.
Lemma nest_thousands c k : leaf c -> ~ has_thousands (nest k c).
Proof.
  intros H (a & d1 & sep & d2 & d3 & d4 & b & E & _ & F). inversion F as [|? ? Hd _]; subst.
  assert (In d1 (nest k c)) as Hi by (rewrite E; apply in_or_app; right; left; reflexivity).
  apply (nest_letters c k (leaf_letters c H)) in Hi. assert (G : forallb (fun x => negb (is_digit x)) letters = true) by (vm_compute; reflexivity).
  rewrite forallb_forall in G. specialize (G d1 Hi). rewrite Hd in G. discriminate.
Qed.
Lemma nest_split c k : leaf c -> split_tuple (nest (S k) c) None = Ret (SSeq KTuple [nest k c; u "z"]).
Proof.
  intro H. rewrite nest_wrap. rewrite (split_tuple_wrapped KTuple None [nest k c; u "z"]).
  - cbn [map]. rewrite (alg_strip _ (nest_algebraic c k H)). reflexivity.
  - cbn; lia.
  - constructor; [apply nest_well, H|]. constructor; [apply well_nested_one; reflexivity|constructor].
  - intros x [<-|[<-|[]]]; [apply nest_comma, H|]. intros ([|y [|y' p]] & q & E & _); discriminate.
  - discriminate.
  - rewrite <- nest_wrap. apply nest_thousands, H.
Qed.
Lemma nest_inj k : nest k (u "x") <> nest k (u "w").
Proof.
  induction k as [|k IH]; [discriminate|]. cbn [nest]. intro E. apply app_inv_head in E. apply app_inv_tail in E. contradiction.
Qed.

Section Deep.
Variable W : World.
(** The back end knows that x and w are equal; nested pairs are no intervals. *)
Hypothesis equal_xw : pure_to (are_equal_under_sympy W (u "x") (u "w")) true.
Hypothesis no_intervals : forall k, not_intervals W (nest k (u "x")) (nest k (u "w")).
Let X k := nest k (u "x"). Let Y k := nest k (u "w").
Lemma X_leaf : leaf (u "x"). Proof. left; reflexivity. Qed.
Lemma Y_leaf : leaf (u "w"). Proof. right; reflexivity. Qed.
Lemma step_deep n k : is_equiv_str W (S n) (X k) (Y k) = try_except (is_latex_equiv W (is_equiv_str W n) (X k) (Y k)) (ret false).
Proof.
  apply (is_equiv_step W n (X k) (Y k)).
  - intro H. apply strip_padding in H. rewrite (alg_strip (X k)), (alg_strip (Y k)) in H by (apply nest_algebraic, X_leaf || apply nest_algebraic, Y_leaf). exact (nest_inj k H).
  - apply algebra_fixed, nest_algebraic, X_leaf.
  - apply algebra_fixed, nest_algebraic, Y_leaf.
  - apply nest_inj.
Qed.
Lemma latex_deep n k b : pure_to (all_zip W (is_equiv_str W n) [X k; u "z"] [Y k; u "z"]) b -> pure_to (is_equiv_str W (S n) (X (S k)) (Y (S k))) b.
Proof.
  intro H. rewrite step_deep. apply pure_try_except, latex_of_tuple.
  - apply alg_not_mat, nest_algebraic, X_leaf.
  - apply alg_not_mat, nest_algebraic, Y_leaf.
  - discriminate.
  - apply no_intervals.
  - intro st. rewrite (possible_tuple_seq W _ _ _ _ _ _ _ (nest_split _ k X_leaf) (nest_split _ k Y_leaf)). revert st.
    eapply pure_bind; [exact H|apply pure_ret].
Qed.
Lemma enough_deep k : forall n, (k < n)%nat -> pure_to (is_equiv_str W n (X k) (Y k)) true.
Proof.
  induction k as [|k IH]; intros n Hn; (destruct n as [|n]; [lia|]).
  - intro st. pose proof (atomic_decided W n (u "x") (u "w") st (leaf_atomic _ X_leaf) (leaf_atomic _ Y_leaf)) as E.
    cbn [is_equiv] in E. change (X 0) with (u "x"). change (Y 0) with (u "w"). rewrite E by discriminate. apply equal_xw.
  - apply latex_deep. cbn [all_zip]. eapply pure_bind; [apply IH; lia|]. cbn [all_zip]. destruct n as [|n]; [lia|].
    apply (pure_bind _ _ true); [intro st; reflexivity|apply pure_ret].
Qed.
Lemma short_deep n : forall k, (S n <= k)%nat -> pure_to (is_equiv_str W (S n) (X k) (Y k)) false.
Proof.
  induction n as [|n IH]; intros k Hk; (destruct k as [|k]; [lia|]).
  - rewrite step_deep. intro st. unfold try_except.
    assert (E : exists s, is_latex_equiv W (is_equiv_str W 0) (X (S k)) (Y (S k)) st = (Raise RecursionError, s)).
    { assert (Hi : exists sp s, (if has_bracket (X (S k)) then possible_intervals W (X (S k)) (Y (S k)) else ret (false, false)) st = (Ret (false, sp), s)).
      { pose proof (no_intervals (S k)) as N. unfold not_intervals in N. fold (X (S k)) (Y (S k)) in N. destruct (has_bracket (X (S k))); [|exists false, st; reflexivity].
        destruct (N eq_refl) as (sp & P). specialize (P st). destruct (possible_intervals W (X (S k)) (Y (S k)) st) as [r s]. cbn [fst] in P. subst r. eauto. }
      destruct Hi as (sp & s & Hi). exists s. unfold is_latex_equiv. change (Y (S k)) with (40 :: nest k (u "w") ++ u ",z)") at 1. cbv iota.
      unfold bind at 1. rewrite Hi. cbn [fst]. unfold bind at 1.
      rewrite (possible_tuple_seq W _ _ _ _ _ _ _ (nest_split _ k X_leaf) (nest_split _ k Y_leaf)). reflexivity. }
    destruct E as (s & ->). reflexivity.
  - apply latex_deep. cbn [all_zip]. eapply pure_bind; [apply IH; lia|apply pure_ret].
Qed.
End Deep.
Lemma depth_needed W : pure_to (are_equal_under_sympy W (u "x") (u "w")) true ->
  (forall k, not_intervals W (nest k (u "x")) (nest k (u "w"))) ->
  forall n k, pure_to (is_equiv W (S n) (Some (nest k (u "x"))) (Some (nest k (u "w")))) (Nat.leb k n).
Proof.
  intros H1 H2 n k. destruct (Nat.leb_spec k n) as [L|L]; [apply (enough_deep W H1 H2 k (S n)); lia|apply (short_deep W H2 n k); lia].
Qed.
