(** Proofs about Tora.v. *)
From Coq Require Import String List Arith NArith ZArith QArith Qfield Bool Lia.
From Verif Require Import PyStr PyStrTheory Regex RegexTheory Monad MonadTheory Split SplitTheory Eval EvalTheory TypeTheory Tora.
Import ListNotations.
Local Open Scope mon_scope.

(** ** rfind *)
Lemma rfind_none p s : rfind_str p s = None <-> ~ infix p s.
Proof.
  induction s as [|c s IH]; cbn [rfind_str].
  - destruct (starts_with p []) eqn:E.
    + split; [discriminate|]. intro H. exfalso. apply starts_with_spec in E. destruct E as (t & E). apply H. exists [], t. exact E.
    + split; [|reflexivity]. intros _ (a & b & H). assert (starts_with p [] = true); [|congruence].
      apply starts_with_spec. symmetry in H. apply app_eq_nil in H. destruct H as [_ H]. apply app_eq_nil in H. destruct H as [-> ->]. exists []. reflexivity.
  - destruct (rfind_str p s) as [k|].
    + split; [discriminate|]. intro H. exfalso. assert (Hs : ~ infix p s).
      { intros (a & b & Hi). apply H. exists (c :: a), b. rewrite Hi. reflexivity. }
      apply IH in Hs. discriminate.
    + destruct (starts_with p (c :: s)) eqn:E.
      * split; [discriminate|]. intro H. exfalso. apply starts_with_spec in E. destruct E as (t & E). apply H. exists [], t. exact E.
      * split; [|reflexivity]. intros _ (a & b & H). destruct a as [|d a].
        -- assert (starts_with p (c :: s) = true); [apply starts_with_spec; eexists; exact H|congruence].
        -- injection H as <- H. apply (proj1 IH eq_refl). exists a, b. exact H.
Qed.
Lemma rfind_some p b : forall a, (forall x y, p ++ b = x ++ p ++ y -> x = []) -> rfind_str p (a ++ p ++ b) = Some (length a).
Proof.
  induction a as [|c a IH]; intro H.
  - cbn [app length]. destruct (p ++ b) as [|c s] eqn:E.
    + cbn. apply app_eq_nil in E. destruct E as [-> ->]. reflexivity.
    + cbn [rfind_str]. assert (Hn : rfind_str p s = None).
      { apply rfind_none. intros (x & y & Hs). specialize (H (c :: x) y). rewrite Hs in H. specialize (H eq_refl). discriminate. }
      rewrite Hn, <- E, starts_with_app. reflexivity.
  - cbn [app rfind_str length]. rewrite IH by exact H. reflexivity.
Qed.

Lemma boxed_last y : ~ infix boxed y -> forall a b, boxed ++ y = a ++ boxed ++ b -> a = [].
Proof.
  intros H a b E. change boxed with [92; 98; 111; 120; 101; 100; 123]%N in *. cbn [app] in E.
  do 7 (destruct a as [|? a]; [first [reflexivity|discriminate E]|cbn [app] in E; injection E as _ E]).
  exfalso. apply H. exists a, b. exact E.
Qed.
Lemma brace_last t : ~ In 125%N t -> forall a b, u "}" ++ t = a ++ u "}" ++ b -> a = [].
Proof.
  intros H a b E. change (u "}") with [125%N] in E. destruct a as [|c a]; [reflexivity|]. cbn in E. injection E as _ E.
  exfalso. apply H. rewrite E. apply in_or_app; right; left; reflexivity.
Qed.
Lemma slice_mid a x t : slice_to (a ++ x ++ t) (length a) (Some (length (a ++ x))) = x.
Proof.
  unfold slice_to. rewrite app_assoc, firstn_app, Nat.sub_diag, firstn_all, app_nil_r.
  rewrite skipn_app, skipn_all, Nat.sub_diag. reflexivity.
Qed.
Lemma infix_boxed_cat x t : ~ infix boxed x -> ~ infix boxed t -> ~ infix boxed (x ++ u "}" ++ t).
Proof.
  intros Hx Ht (a & b & E). destruct (app_eq_app _ _ _ _ E) as (r & [[E1 E2]|[E1 E2]]).
  - (* begins inside x *)
    change boxed with [92; 98; 111; 120; 101; 100; 123]%N in *. change (u "}") with [125%N] in *. cbn [app] in E2.
    do 7 (destruct r as [|? r]; [discriminate E2|cbn [app] in E2; injection E2 as <- E2]).
    apply Hx. exists a, r. exact E1.
  - change (u "}") with [125%N] in *. destruct r as [|c r]; [discriminate E2|]. cbn [app] in E2. injection E2 as _ E2.
    apply Ht. exists r, b. exact E2.
Qed.

(** C47 *)
Lemma extract_boxed_at p y : p <> [] -> ~ infix boxed y ->
  extract_boxed (p ++ boxed ++ y) = Some (slice_to (p ++ boxed ++ y) (length (p ++ boxed)) (rfind_str (u "}") (p ++ boxed ++ y))).
Proof.
  intros Hp Hy. unfold extract_boxed. rewrite (rfind_some boxed y p (boxed_last y Hy)).
  destruct p as [|c p]; [contradiction|]. cbn [length]. rewrite app_length. reflexivity.
Qed.
Lemma extract_boxed_ok p x t : p <> [] -> ~ infix boxed x -> ~ infix boxed t -> ~ In 125%N t ->
  extract_boxed (p ++ boxed ++ x ++ u "}" ++ t) = Some x.
Proof.
  intros Hp Hx Ht Hb. rewrite extract_boxed_at by (auto using infix_boxed_cat).
  assert (E : p ++ boxed ++ x ++ u "}" ++ t = ((p ++ boxed) ++ x) ++ u "}" ++ t) by (rewrite <- !app_assoc; reflexivity).
  rewrite E at 2. rewrite rfind_some by (apply brace_last, Hb).
  rewrite (app_assoc p). rewrite slice_mid. reflexivity.
Qed.
Lemma extract_boxed_start y : ~ infix boxed y -> extract_boxed (boxed ++ y) = None.
Proof.
  intro H. unfold extract_boxed. rewrite (rfind_some boxed y [] (boxed_last y H) : rfind_str boxed (boxed ++ y) = Some O). reflexivity.
Qed.
Lemma extract_boxed_none s : ~ infix boxed s -> extract_boxed s = None.
Proof. intro H. unfold extract_boxed. apply rfind_none in H. rewrite H. reflexivity. Qed.
Lemma extract_boxed_unclosed p x c : p <> [] -> ~ infix boxed (x ++ [c]) -> ~ In 125%N (p ++ x ++ [c]) ->
  extract_boxed (p ++ boxed ++ x ++ [c]) = Some x.
Proof.
  intros Hp Hx Hb. rewrite extract_boxed_at by assumption.
  assert (Hn : rfind_str (u "}") (p ++ boxed ++ x ++ [c]) = None).
  { apply rfind_none. intros (a & b & E). apply Hb.
    assert (Hin : In 125%N (p ++ boxed ++ x ++ [c])) by (rewrite E; apply in_or_app; right; left; reflexivity).
    rewrite !in_app_iff in *. destruct Hin as [Hin|[Hin|Hin]]; auto.
    cbn in Hin. intuition discriminate. }
  rewrite Hn. unfold slice_to.
  replace (pred (length (p ++ boxed ++ x ++ [c]))) with (length ((p ++ boxed) ++ x)) by (rewrite !app_length; cbn [length]; lia).
  pose proof (slice_mid (p ++ boxed) x [c]) as E. unfold slice_to in E. rewrite (app_assoc p boxed). rewrite E. reflexivity.
Qed.

(** ** C48 *)
Section MATH.
Variable W : World.
Variable n : nat.
Notation St := (St W).
(** Every element of [l] is rejected in turn, leading from [st] to [st']. *)
Inductive rejected (pred : option pystr) : list pystr -> St -> St -> Prop :=
| Rej_nil st : rejected pred [] st st
| Rej_cons g l st st1 st2 : is_equiv W n (Some g) pred st = (Ret false, st1) -> rejected pred l st1 st2 -> rejected pred (g :: l) st st2.

Lemma any_ground_true l pred : forall st st',
  any_ground W n l pred st = (Ret true, st') <->
  exists l1 g l2 st1, l = l1 ++ g :: l2 /\ rejected pred l1 st st1 /\ is_equiv W n (Some g) pred st1 = (Ret true, st').
Proof.
  induction l as [|g l IH]; intros st st'; cbn [any_ground].
  - split; [discriminate|]. intros (l1 & g & l2 & st1 & E & _). destruct l1; discriminate.
  - split.
    + intro H. apply bind_inv in H. destruct H as ([] & st1 & E & H).
      * injection H as ->. exists [], g, l, st. split; [reflexivity|]. split; [constructor|exact E].
      * apply IH in H. destruct H as (l1 & g' & l2 & st2 & -> & Hr & Hg). exists (g :: l1), g', l2, st2.
        split; [reflexivity|]. split; [econstructor; eauto|exact Hg].
    + intros (l1 & g' & l2 & st1 & E & Hr & Hg). unfold bind. destruct l1 as [|x l1]; cbn in E; injection E as <- ->.
      * inversion Hr; subst. rewrite Hg. reflexivity.
      * inversion Hr; subst. rewrite H1. apply IH. exists l1, g', l2, st1. auto.
Qed.
Lemma any_ground_false l pred : forall st st', any_ground W n l pred st = (Ret false, st') <-> rejected pred l st st'.
Proof.
  induction l as [|g l IH]; intros st st'; cbn [any_ground].
  - split; [intros [= ->]; constructor|]. intro H. inversion H. reflexivity.
  - split.
    + intro H. apply bind_inv in H. destruct H as ([] & st1 & E & H); [discriminate|]. apply IH in H. econstructor; eauto.
    + intro H. inversion H; subst. unfold bind. rewrite H2. apply IH. assumption.
Qed.
Lemma any_ground_pure l pred (v : pystr -> bool) :
  (forall g, In g l -> forall st, fst (is_equiv W n (Some g) pred st) = Ret (v g)) ->
  forall st, fst (any_ground W n l pred st) = Ret (existsb v l).
Proof.
  intro H. induction l as [|g l IH]; [apply pure_ret|]. cbn [any_ground existsb].
  apply (pure_bind _ _ (v g)); [intro st; apply H; left; reflexivity|]. destruct (v g); [apply pure_ret|]. intro st. apply IH. intros g' Hg. apply H; right; exact Hg.
Qed.

(** ** C49 *)
(** The annotation used for a question: the last one. *)
Definition annotation (test : list (pystr * ground)) (q : pystr) (a : ground) : Prop :=
  exists t1 t2, test = t1 ++ (q, a) :: t2 /\ forall a', ~ In (q, a') t2.
Lemma q2a_app t1 t2 q : q2a (t1 ++ t2) q = fold_left (fun acc p => if str_eqb (fst p) q then Some (snd p) else acc) t2 (q2a t1 q).
Proof. unfold q2a. rewrite fold_left_app. reflexivity. Qed.
Lemma q2a_spec test q a : q2a test q = Some a <-> annotation test q a.
Proof.
  induction test as [|[q' a'] test IH] using rev_ind.
  - split; [discriminate|]. intros (t1 & t2 & E & _). destruct t1; discriminate.
  - rewrite q2a_app. cbn [fold_left fst snd]. destruct (str_eqb q' q) eqn:E.
    + apply str_eqb_eq in E. subst q'. split.
      * intros [= ->]. exists test, []. split; [reflexivity|]. intros ? [].
      * intros (t1 & t2 & E & Hn). destruct t2 as [|x t2] using rev_ind.
        -- apply app_inj_tail in E. destruct E as [_ [= ->]]. reflexivity.
        -- rewrite app_comm_cons, app_assoc in E. apply app_inj_tail in E. destruct E as [_ <-]. exfalso. apply (Hn a'). apply in_or_app; right; left; reflexivity.
    + apply str_eqb_neq in E. rewrite IH. split.
      * intros (t1 & t2 & -> & Hn). exists t1, (t2 ++ [(q', a')]). split; [rewrite <- app_assoc; reflexivity|].
        intros a'' Hin. apply in_app_iff in Hin. destruct Hin as [Hin|[[= Hin _]|[]]]; [exact (Hn _ Hin)|contradiction].
      * intros (t1 & t2 & E' & Hn). destruct t2 as [|x t2] using rev_ind.
        -- apply app_inj_tail in E'. destruct E' as [_ [= -> _]]. contradiction.
        -- rewrite app_comm_cons, app_assoc in E'. apply app_inj_tail in E'. destruct E' as [-> _]. exists t1, t2. split; [reflexivity|].
           intros a'' Hin. apply (Hn a''). apply in_or_app; left; exact Hin.
Qed.

(** An output whose box is accepted. *)
Definition accepted (v : ground -> pystr -> bool) (test : list (pystr * ground)) (d : output) : Prop :=
  exists a box, annotation test (o_question d) a /\ extract_boxed (last (o_code d) []) = Some box /\ v a box = true.
Definition well_formed (test : list (pystr * ground)) (d : output) : Prop :=
  (exists a, annotation test (o_question d) a) /\ o_code d <> [].
Definition trues (bs : list bool) : nat := List.length (filter id bs).

Lemma count_spec v test tora : (forall a b st, fst (is_equiv_MATH W n a (Some b) st) = Ret (v a b)) ->
  Forall (well_formed test) tora -> forall c,
  exists bs, Forall2 (fun d b => b = true <-> accepted v test d) tora bs /\ forall st, fst (count W n test tora c st) = Ret (c + trues bs)%nat.
Proof.
  intros Hv F. induction F as [|d tora [(a & Ha) Hc] F IH]; intro c.
  - exists []. split; [constructor|]. intro st. cbn. rewrite Nat.add_0_r. reflexivity.
  - cbn [count]. pose proof Ha as Ha'. apply q2a_spec in Ha. rewrite Ha.
    destruct (o_code d) as [|c0 cs] eqn:Ec; [contradiction|]. clear Hc. rewrite <- Ec.
    assert (Hann : forall a2, annotation test (o_question d) a2 -> a2 = a).
    { intros a2 H. apply q2a_spec in H. congruence. }
    destruct (extract_boxed (last (o_code d) [])) as [box|] eqn:Eb.
    + destruct (IH (if v a box then S c else c)) as (bs & HF & HE). exists (v a box :: bs). split.
      * constructor; [|exact HF]. split.
        -- intro E. exists a, box. auto.
        -- intros (a2 & box2 & H1 & H2 & H3). rewrite (Hann _ H1) in H3. rewrite Eb in H2. injection H2 as <-. exact H3.
      * intro st. revert st. apply (pure_bind (is_equiv_MATH W n a (Some box)) _ (v a box)); [intro; apply Hv|].
        intro st'. rewrite HE. unfold trues, id. cbn [filter]. destruct (v a box); cbn [List.length]; f_equal; lia.
    + destruct (IH c) as (bs & HF & HE). exists (false :: bs). split.
      * constructor; [|exact HF]. split; [discriminate|]. intros (a2 & box2 & _ & H2 & _). congruence.
      * intro st. rewrite HE. reflexivity.
Qed.
Lemma trues_le bs : (trues bs <= List.length bs)%nat.
Proof. unfold trues. induction bs as [|[] bs IH]; cbn; lia. Qed.
Lemma accuracy_spec v test tora : (forall a b st, fst (is_equiv_MATH W n a (Some b) st) = Ret (v a b)) ->
  Forall (well_formed test) tora -> List.length tora = List.length test -> tora <> [] ->
  exists bs, Forall2 (fun d b => b = true <-> accepted v test d) tora bs /\
    (forall st, fst (accuracy W n tora test st) = Ret (inject_Z (Z.of_nat (trues bs)) / inject_Z (Z.of_nat (List.length tora)))%Q) /\
    (0 <= inject_Z (Z.of_nat (trues bs)) / inject_Z (Z.of_nat (List.length tora)) <= 1)%Q.
Proof.
  intros Hv F Hl Hne. destruct (count_spec v test tora Hv F 0) as (bs & HF & HE). exists bs. split; [exact HF|]. split.
  - intro st. unfold accuracy. rewrite Hl, Nat.eqb_refl. cbn [negb].
    revert st. apply (pure_bind (count W n test tora 0) _ (trues bs)); [exact HE|]. rewrite <- Hl. destruct tora; [contradiction|]. apply pure_ret.
  - assert (Hb : List.length bs = List.length tora) by (clear - HF; induction HF; cbn; auto).
    pose proof (trues_le bs) as Ht. rewrite Hb in Ht.
    assert (Hp : (0 < inject_Z (Z.of_nat (List.length tora)))%Q).
    { unfold Qlt. cbn. destruct tora; [contradiction|cbn; lia]. }
    split.
    + apply Qle_shift_div_l; [exact Hp|]. rewrite Qmult_0_l. change 0%Q with (inject_Z 0). rewrite <- Zle_Qle. lia.
    + apply Qle_shift_div_r; [exact Hp|]. rewrite Qmult_1_l. rewrite <- Zle_Qle. lia.
Qed.
End MATH.

Lemma MATH_returns W n a b st :
  (forall x y st' e, fst (interval_compare W x y st') = Raise e -> is_Exception e = true) ->
  exists r, fst (is_equiv_MATH W (S n) a (Some b) st) = Ret r.
Proof.
  intro HI. apply ro_false.
  assert (H : forall g, raises_only (fun _ => False) (is_equiv W (S n) (Some g) (Some b))) by (intro g; exact (is_equiv_str_never_raises W n HI g b)).
  destruct a as [l|s]; [|apply H]. cbn [is_equiv_MATH]. induction l as [|g l IH]; [apply ro_ret|].
  cbn [any_ground]. apply ro_bind; [apply H|intros []; [apply ro_ret|exact IH]].
Qed.
