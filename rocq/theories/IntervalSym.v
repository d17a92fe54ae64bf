(** An interval one end of which is no number: it is built as written, without a check of the order. *)
From Coq Require Import String List NArith ZArith Bool Lia.
From Verif Require Import PyStr SplitTheory NormClean Monad MonadTheory Interval IntervalTheory.
Import ListNotations.
Local Open Scope mon_scope.

Section S.
Context {St V S : Type}.
Variable IS : ISympy St V S.

(** The text of an end is read as [v], and what is put into the interval is [w]: [v] itself unless it is a
    number; a number is evaluated, and made an integer if it is within the tolerance of one. *)
Definition end_read (t : pystr) (w : V) (number : bool) : Prop :=
  exists v, pure_to (iv_latex2sympy _ _ _ IS t) v /\ pure_to (iv_is_number _ _ _ IS w) number /\
    (pure_to (iv_is_number _ _ _ IS v) false /\ w = v \/
     pure_to (iv_is_number _ _ _ IS v) true /\ exists f, pure_to (iv_evalf _ _ _ IS v) f /\
       (pure_to (iv_is_int _ _ _ IS f) false /\ w = f \/ pure_to (iv_is_int _ _ _ IS f) true /\ pure_to (iv_Integer _ _ _ IS f) w)).
Lemma end_read_point t w n : end_read t w n -> exists v, pure_to (iv_latex2sympy _ _ _ IS t) v /\ pure_to (end_point IS v) w.
Proof.
  intros (v & Hv & _ & [[N ->]|(N & f & Hf & [[I ->]|[I W]])]); exists v; (split; [exact Hv|]); unfold end_point;
    eapply pure_bind; [exact N|apply pure_ret|exact N| |exact N|]; (eapply pure_bind; [exact Hf|]); eapply pure_bind; [exact I|apply pure_ret|exact I|exact W].
Qed.
Lemma step_pure {A B} (m : M St A) (f : A -> M St B) a st : pure_to m a -> exists st1, bind m f st = f a st1.
Proof. intro H. specialize (H st). unfold bind. destruct (m st) as [r st1]. cbn in H. subst r. exists st1. reflexivity. Qed.
Theorem symbolic_interval i v w nv nw : plain i -> end_read (without opening (w_lo i)) v nv -> end_read (without closing (w_hi i)) w nw -> nv && nw = false ->
  forall st, exists st', one_interval IS (text i) st = iv_interval _ _ _ IS v w (open_left i) (open_right i) st'.
Proof.
  intros Hp Hv Hw N st. destruct (end_read_point _ _ _ Hv) as (v0 & R1 & P1). destruct (end_read_point _ _ _ Hw) as (w0 & R2 & P2).
  destruct Hv as (_ & _ & Nv & _). destruct Hw as (_ & _ & Nw & _).
  unfold one_interval. rewrite strip_text, (split_text i Hp). rewrite drop_opening, drop_closing.
  destruct (step_pure _ (fun lo => hi <- iv_latex2sympy _ _ _ IS (without closing (w_hi i)) ;; lo <- end_point IS lo ;; hi <- end_point IS hi ;;
    n1 <- iv_is_number _ _ _ IS lo ;; n2 <- (if n1 then iv_is_number _ _ _ IS hi else ret false) ;; bad <- (if n2 then iv_gt _ _ _ IS lo hi else ret false) ;;
    if bad then raise ValueError else iv_interval _ _ _ IS lo hi (contains (u "(") (text i)) (contains (u ")") (text i))) _ st R1) as [s1 ->].
  destruct (step_pure _ (fun hi => lo <- end_point IS v0 ;; hi <- end_point IS hi ;;
    n1 <- iv_is_number _ _ _ IS lo ;; n2 <- (if n1 then iv_is_number _ _ _ IS hi else ret false) ;; bad <- (if n2 then iv_gt _ _ _ IS lo hi else ret false) ;;
    if bad then raise ValueError else iv_interval _ _ _ IS lo hi (contains (u "(") (text i)) (contains (u ")") (text i))) _ s1 R2) as [s2 ->].
  destruct (step_pure _ (fun lo => hi <- end_point IS w0 ;;
    n1 <- iv_is_number _ _ _ IS lo ;; n2 <- (if n1 then iv_is_number _ _ _ IS hi else ret false) ;; bad <- (if n2 then iv_gt _ _ _ IS lo hi else ret false) ;;
    if bad then raise ValueError else iv_interval _ _ _ IS lo hi (contains (u "(") (text i)) (contains (u ")") (text i))) _ s2 P1) as [s3 ->].
  destruct (step_pure _ (fun hi => 
    n1 <- iv_is_number _ _ _ IS v ;; n2 <- (if n1 then iv_is_number _ _ _ IS hi else ret false) ;; bad <- (if n2 then iv_gt _ _ _ IS v hi else ret false) ;;
    if bad then raise ValueError else iv_interval _ _ _ IS v hi (contains (u "(") (text i)) (contains (u ")") (text i))) _ s3 P2) as [s4 ->].
  destruct (step_pure _ (fun n1 : bool => n2 <- (if n1 then iv_is_number _ _ _ IS w else ret false) ;; bad <- (if n2 then iv_gt _ _ _ IS v w else ret false) ;;
    if bad then raise ValueError else iv_interval _ _ _ IS v w (contains (u "(") (text i)) (contains (u ")") (text i))) _ s4 Nv) as [s5 ->].
  destruct nv.
  - cbn in N. subst nw.
    destruct (step_pure _ (fun n2 : bool => bad <- (if n2 then iv_gt _ _ _ IS v w else ret false) ;;
      if bad then raise ValueError else iv_interval _ _ _ IS v w (contains (u "(") (text i)) (contains (u ")") (text i))) _ s5 Nw) as [s6 ->].
    exists s6. reflexivity.
  - exists s5. reflexivity.
Qed.
(** The whole text of one such interval *)
Theorem symbolic_alone i v w nv nw s s' : plain i -> end_read (without opening (w_lo i)) v nv -> end_read (without closing (w_hi i)) w nw -> nv && nw = false ->
  pure_to (iv_interval _ _ _ IS v w (open_left i) (open_right i)) s -> pure_to (iv_is_empty _ _ _ IS (iv_empty _ _ _ IS)) true ->
  pure_to (iv_union _ _ _ IS (iv_empty _ _ _ IS) s) s' -> pure_to (interval_of IS (text i)) s'.
Proof.
  intros Hp Hv Hw N Hs He Hu.
  assert (O : pure_to (one_interval IS (text i)) s).
  { intro st. destruct (symbolic_interval i v w nv nw Hp Hv Hw N st) as [s1 ->]. apply Hs. }
  assert (A : split_either cup_sign (u "\cup") (text i) = [text i]).
  { exact (split_parts (u "\cup") (u "\cap") [[i]] (or_intror eq_refl) (or_intror eq_refl) ltac:(discriminate) ltac:(repeat constructor; first [discriminate|apply Hp])). }
  assert (B : split_either cap_sign (u "\cap") (text i) = [text i]).
  { exact (split_part (u "\cap") [i] (or_intror eq_refl) ltac:(discriminate) ltac:(repeat constructor; apply Hp)). }
  unfold interval_of. rewrite A. cbn [unions]. rewrite B. cbn [intersections].
  eapply pure_bind; [|eapply pure_bind; [exact Hu|apply pure_ret]].
  eapply pure_bind; [exact O|]. eapply pure_bind; [exact He|]. eapply pure_bind; apply pure_ret.
Qed.
End S.
