(** More proofs about Eval.v: unordered answers, matrices, whole verdicts. *)
From Coq Require Import String List NArith ZArith Bool Permutation RelationClasses Lia.
From Verif Require Import PyStr PyStrTheory Regex Normalize Monad MonadTheory Split Eval Spec EvalTheory.
Import ListNotations.
Local Open Scope mon_scope.

Lemma Forall2_length {A B} (R : A -> B -> Prop) l1 l2 : Forall2 R l1 l2 -> length l1 = length l2.
Proof. induction 1; cbn; congruence. Qed.

Lemma set_iter_distinct W l : distinct_elements l (set_iter W l).
Proof.
  split.
  - eapply Permutation_NoDup; [apply Permutation_sym, set_iter_ok|apply NoDup_nodup].
  - intro x. rewrite <- (nodup_In str_eq_dec l x). split; intro H.
    + eapply Permutation_in; [apply set_iter_ok|exact H].
    + eapply Permutation_in; [apply Permutation_sym, set_iter_ok|exact H].
Qed.
Lemma distinct_perm {A} (l d d' : list A) : distinct_elements l d -> distinct_elements l d' -> Permutation d d'.
Proof. intros [N1 H1] [N2 H2]. apply NoDup_Permutation; auto. intro x. rewrite H1, H2. tauto. Qed.

Lemma unused_fresh l : unused (map (fun v => (v, false)) l) = l.
Proof. unfold unused. induction l as [|x l IH]; [reflexivity|]. cbn. f_equal. exact IH. Qed.
Lemma fst_fresh l : map fst (map (fun v : pystr => (v, false)) l) = l.
Proof. rewrite map_map. cbn. apply map_id. Qed.

Lemma matching_length {A B} (R : A -> B -> Prop) l1 l2 rest :
  matching R l1 l2 rest -> length l2 = (length l1 + length rest)%nat.
Proof.
  intros (m & P & F). apply Permutation_length in P. rewrite app_length in P.
  apply Forall2_length in F. lia.
Qed.

Lemma tuple_set_sound W n gt gv l1 l2 st sp :
  split_tuple gt None = Ret (SSeq KSet l1) -> split_tuple gv None = Ret (SSeq KSet l2) ->
  fst (possible_tuple W (is_equiv_str W n) gt gv st) = Ret (true, sp) ->
  exists d1 d2 rest,
    distinct_elements l1 d1 /\ distinct_elements l2 d2 /\
    matching (fun x y => exists st', fst (is_equiv_str W n x y st') = Ret true) d1 d2 rest /\
    (~ In (u "\in") l2 -> rest = []).
Proof.
  intros H1 H2 H. rewrite (possible_tuple_seq _ _ _ _ _ _ _ _ H1 H2) in H.
  apply bind_inv_fst in H. destruct H as (b & st1 & E & H). injection H as -> _.
  unfold compare_elems in E.
  destruct (negb (Nat.eqb (py_len W (SSeq KSet l1)) (py_len W (SSeq KSet l2))) && negb (has_in (SSeq KSet l2))) eqn:C;
    [discriminate|].
  cbn [kind_eqb negb] in E.
  assert (G : fst (greedy W (is_equiv_str W n) (set_iter W l1)
                 (map (fun v => (v, false)) (set_iter W l2)) st) = Ret true) by (rewrite E; reflexivity).
  apply greedy_sound in G. destruct G as (rest & G). rewrite unused_fresh in G.
  exists (set_iter W l1), (set_iter W l2), rest.
  split; [apply set_iter_distinct|]. split; [apply set_iter_distinct|]. split; [exact G|].
  intro Hin. apply matching_length in G.
  assert (has_in (SSeq KSet l2) = false) as X.
  { cbn [has_in]. apply not_true_is_false. intro X. apply existsb_exists in X. destruct X as (x & Hx & Ex).
    apply str_eqb_eq in Ex. subst x. contradiction. }
  rewrite X, andb_true_r in C. apply negb_false_iff, Nat.eqb_eq in C. cbn [py_len elems] in C.
  destruct rest; [reflexivity|]. cbn in G. lia.
Qed.

Lemma tuple_set_complete W n gt gv l1 l2 (v : pystr -> pystr -> bool) d1 d2 :
  split_tuple gt None = Ret (SSeq KSet l1) -> split_tuple gv None = Ret (SSeq KSet l2) ->
  Equivalence (fun x y => v x y = true) ->
  (forall x y, In x l1 -> In y l2 -> pure_to (is_equiv_str W n x y) (v x y)) ->
  distinct_elements l1 d1 -> distinct_elements l2 d2 -> length d1 = length d2 ->
  forall st, exists b, fst (possible_tuple W (is_equiv_str W n) gt gv st) = Ret (b, true) /\
    (b = true <-> matching (fun x y => v x y = true) d1 d2 []).
Proof.
  intros H1 H2 [Hr Hs Ht] Hv D1 D2 Hl st.
  pose proof (distinct_perm _ _ _ (set_iter_distinct W l1) D1) as P1.
  pose proof (distinct_perm _ _ _ (set_iter_distinct W l2) D2) as P2.
  exists (greedy_pure v (set_iter W l1) (map (fun y => (y, false)) (set_iter W l2))). split.
  - rewrite (possible_tuple_seq _ _ _ _ _ _ _ _ H1 H2). revert st.
    eapply pure_bind; [|apply pure_ret]. unfold compare_elems. cbn [py_len elems].
    rewrite (Permutation_length P1), (Permutation_length P2), Hl, Nat.eqb_refl. cbn [negb andb kind_eqb].
    apply greedy_is_pure. rewrite fst_fresh. intros x y Hx Hy. apply Hv.
    + apply (proj2 (set_iter_distinct W l1)), Hx.
    + apply (proj2 (set_iter_distinct W l2)), Hy.
  - rewrite greedy_pure_complete, unused_fresh.
    + split.
      * intros (rest & M). pose proof (matching_length _ _ _ _ M) as L.
        rewrite (Permutation_length P1), (Permutation_length P2), Hl in L.
        destruct rest; [|cbn in L; lia]. destruct M as (m & Pm & F).
        destruct (Forall2_perm_l _ _ _ _ P1 F) as (m' & Pm' & F').
        exists m'. split; [|exact F']. rewrite <- P2, Pm, !app_nil_r. exact Pm'.
      * intros (m & Pm & F). exists [].
        destruct (Forall2_perm_l _ _ _ _ (Permutation_sym P1) F) as (m' & Pm' & F').
        exists m'. split; [|exact F']. rewrite P2, Pm, !app_nil_r. exact Pm'.
    + intros x y z w A B C. exact (Ht _ _ _ A (Ht _ _ _ (Hs _ _ B) C)).
Qed.

(** Matrices *)
Definition cell_rel (R : pystr -> pystr -> Prop) (a b : cell) : Prop :=
  match a, b with
  | CStr x, CStr y => R x y
  | CRow r1, CRow r2 => pointwise R r1 r2
  | _, _ => False
  end.
Definition in_cell (x : pystr) (c : cell) : Prop := match c with CStr s => x = s | CRow l => In x l end.

Fixpoint rows_pure (v : pystr -> pystr -> bool) (l1 l2 : list cell) : bool :=
  match l1, l2 with
  | c1 :: l1', c2 :: l2' =>
    match c1, c2 with
    | CStr s1, CStr s2 => v s1 s2 && rows_pure v l1' l2'
    | CRow r1, CRow r2 => Nat.eqb (length r1) (length r2) && forallb (fun p => v (fst p) (snd p)) (combine r1 r2)
                          && rows_pure v l1' l2'
    | _, _ => false
    end
  | _, _ => true
  end.

Lemma all_rows_pure W rec (v : pystr -> pystr -> bool) l1 l2 :
  (forall c d x y, In c l1 -> In d l2 -> in_cell x c -> in_cell y d -> pure_to (rec x y) (v x y)) ->
  pure_to (all_rows W rec l1 l2) (rows_pure v l1 l2).
Proof.
  revert l2; induction l1 as [|c1 l1 IH]; intros [|c2 l2] H; try apply pure_ret.
  assert (IH' : pure_to (all_rows W rec l1 l2) (rows_pure v l1 l2)).
  { apply IH. intros c d x y Hc Hd. apply H; right; assumption. }
  cbn [all_rows rows_pure]. destruct c1 as [s1|r1], c2 as [s2|r2]; try apply pure_ret.
  - eapply pure_bind; [apply (H (CStr s1) (CStr s2)); cbn; auto|].
    destruct (v s1 s2); cbn [andb]; [exact IH'|apply pure_ret].
  - destruct (Nat.eqb (length r1) (length r2)); cbn [negb andb]; [|apply pure_ret].
    eapply pure_bind; [apply all_zip_pure; intros x y Hx Hy; apply (H (CRow r1) (CRow r2)); cbn; auto|].
    destruct (forallb _ _); cbn [andb]; [exact IH'|apply pure_ret].
Qed.
Lemma rows_pure_spec v l1 l2 : length l1 = length l2 ->
  rows_pure v l1 l2 = true <-> Forall2 (cell_rel (fun x y => v x y = true)) l1 l2.
Proof.
  revert l2; induction l1 as [|c1 l1 IH]; intros [|c2 l2] H; try discriminate; cbn [rows_pure]; [split; auto|].
  assert (H' : length l1 = length l2) by (cbn in H; lia). specialize (IH _ H').
  split.
  - intro X. destruct c1 as [s1|r1], c2 as [s2|r2]; try discriminate; rewrite !andb_true_iff in X.
    + destruct X as [X Y]. constructor; [exact X|apply IH, Y].
    + destruct X as [[L X] Y]. apply Nat.eqb_eq in L. constructor; [|apply IH, Y].
      cbn. apply pointwise_Forall2, forallb_combine; assumption.
  - inversion 1 as [|? ? ? ? Hc F]; subst. apply IH in F. rewrite F.
    destruct c1 as [s1|r1], c2 as [s2|r2]; cbn in Hc; try contradiction.
    + rewrite Hc. reflexivity.
    + rewrite !andb_true_iff. apply pointwise_Forall2 in Hc.
      pose proof (Forall2_length _ _ _ Hc) as L. rewrite L, Nat.eqb_refl.
      repeat split. apply forallb_combine; assumption.
Qed.

Lemma possible_matrix_rows W rec gt gv l1 l2 (v : pystr -> pystr -> bool) :
  split_matrix gt = Ret (MRows l1) -> split_matrix gv = Ret (MRows l2) ->
  (forall c d x y, In c l1 -> In d l2 -> in_cell x c -> in_cell y d -> pure_to (rec x y) (v x y)) ->
  forall st, exists b, fst (possible_matrix W rec gt gv st) = Ret (b, true) /\
    (b = true <-> pointwise (cell_rel (fun x y => v x y = true)) l1 l2).
Proof.
  intros H1 H2 Hv st. unfold possible_matrix, lift. rewrite H1, H2.
  unfold bind at 1. unfold bind at 1.
  destruct (Nat.eqb (length l1) (length l2)) eqn:L; cbn [negb].
  - apply Nat.eqb_eq in L. exists (rows_pure v l1 l2). split.
    + revert st. eapply pure_bind; [apply all_rows_pure, Hv|]. apply pure_ret.
    + rewrite pointwise_Forall2. apply rows_pure_spec, L.
  - apply Nat.eqb_neq in L. exists false. split; [reflexivity|].
    split; [discriminate|]. intros [X _]. contradiction.
Qed.

(** Accepted matrices, arbitrary stateful back end *)
Lemma all_rows_sound W rec l1 l2 st :
  length l1 = length l2 ->
  fst (all_rows W rec l1 l2 st) = Ret true ->
  Forall2 (cell_rel (fun x y => exists st', fst (rec x y st') = Ret true)) l1 l2.
Proof.
  revert l2 st; induction l1 as [|c1 l1 IH]; intros [|c2 l2] st L H; try discriminate; [constructor|].
  assert (L' : length l1 = length l2) by (cbn in L; lia).
  cbn [all_rows] in H. destruct c1 as [s1|r1], c2 as [s2|r2]; try discriminate.
  - apply bind_inv_fst in H. destruct H as ([] & st1 & E & H); [|discriminate].
    constructor; [exists st; rewrite E; reflexivity|eapply IH; eauto].
  - destruct (Nat.eqb (length r1) (length r2)) eqn:Lr; [|discriminate]. cbn [negb] in H.
    apply bind_inv_fst in H. destruct H as ([] & st1 & E & H); [|discriminate].
    constructor; [|eapply IH; eauto]. cbn. apply pointwise_Forall2. apply Nat.eqb_eq in Lr.
    assert (G : fst (all_zip W rec r1 r2 st) = Ret true) by (rewrite E; reflexivity).
    apply all_zip_sound in G. clear - G Lr. revert r2 Lr G; induction r1 as [|x r1 IH]; intros [|y r2] Lr G; try discriminate; constructor.
    + inversion G; subst; assumption.
    + apply IH; [cbn in Lr; lia|]. inversion G; subst; assumption.
Qed.


Lemma possible_matrix_rows_sound W rec gt gv l1 l2 st sp :
  split_matrix gt = Ret (MRows l1) -> split_matrix gv = Ret (MRows l2) ->
  fst (possible_matrix W rec gt gv st) = Ret (true, sp) ->
  pointwise (cell_rel (fun x y => exists st', fst (rec x y st') = Ret true)) l1 l2.
Proof.
  intros H1 H2 H. unfold possible_matrix, lift in H. rewrite H1, H2 in H.
  unfold bind at 1 in H. unfold bind at 1 in H.
  destruct (Nat.eqb (length l1) (length l2)) eqn:L; cbn [negb] in H; [|discriminate].
  apply Nat.eqb_eq in L. apply bind_inv_fst in H. destruct H as (b & st1 & E & H). injection H as -> _.
  apply pointwise_Forall2. eapply all_rows_sound; [exact L|]. rewrite E. reflexivity.
Qed.

(** ** The whole verdict *)

(** The normal form of [a] is the string [s]. *)
Definition normal_form (W : World) (a s : pystr) : Prop := string_normalize (int_str W) a = NStr s.

Lemma padding_iff a b : str_eqb (strip a) (strip b) = true <-> equal_up_to_padding is_space a b.
Proof.
  rewrite str_eqb_eq. split; [apply padding_strip|apply strip_padding].
Qed.

Lemma is_equiv_step W n a b s1 s2 :
  ~ equal_up_to_padding is_space a b -> normal_form W a s1 -> normal_form W b s2 -> s1 <> s2 ->
  is_equiv W (S n) (Some a) (Some b) = try_except (is_latex_equiv W (is_equiv_str W n) s1 s2) (ret false).
Proof.
  intros Hp H1 H2 Hne. unfold normal_form in *. cbn [is_equiv is_equiv_str]. unfold is_equiv_body. rewrite H1, H2.
  destruct (str_eqb (strip a) (strip b)) eqn:E; [apply padding_iff in E; contradiction|].
  destruct (str_eqb s1 s2) eqn:E2; [apply str_eqb_eq in E2; contradiction|]. reflexivity.
Qed.

(** The interval rule (evaluations.py:66-68) does not accept the pair. *)
Definition not_intervals (W : World) (s1 s2 : pystr) : Prop :=
  has_bracket s1 = true -> exists sp, pure_to (possible_intervals W s1 s2) (false, sp).

Lemma latex_of_tuple W rec gt gv b :
  str_is_mat gt = false -> str_is_mat gv = false -> gv <> [] -> not_intervals W gt gv ->
  pure_to (possible_tuple W rec gt gv) (b, true) ->
  pure_to (is_latex_equiv W rec gt gv) b.
Proof.
  intros M1 M2 Hne Hi Ht. unfold is_latex_equiv. destruct gv as [|c gv]; [contradiction|].
  rewrite M1, M2. cbn [orb].
  assert (exists s, pure_to (if has_bracket gt then possible_intervals W gt (c :: gv) else ret (false, false)) (false, s)) as (s & Hs).
  { unfold not_intervals in Hi. destruct (has_bracket gt); [auto|exists false; apply pure_ret]. }
  eapply pure_bind; [exact Hs|]. cbn [fst].
  eapply pure_bind; [exact Ht|]. cbn [fst]. rewrite andb_false_r.
  eapply pure_bind; [apply pure_ret|]. cbn [fst snd negb]. rewrite andb_false_r. apply pure_ret.
Qed.

Lemma split_nil : split_tuple [] None = Ret (SStr []).
Proof. vm_compute. reflexivity. Qed.

Lemma is_equiv_ordered W n a b s1 s2 k l1 l2 (v : pystr -> pystr -> bool) :
  ~ equal_up_to_padding is_space a b -> normal_form W a s1 -> normal_form W b s2 -> s1 <> s2 ->
  str_is_mat s1 = false -> str_is_mat s2 = false -> not_intervals W s1 s2 ->
  k <> KSet -> split_tuple s1 None = Ret (SSeq k l1) -> split_tuple s2 None = Ret (SSeq k l2) ->
  length l1 = length l2 ->
  (forall x y, In x l1 -> In y l2 -> pure_to (is_equiv_str W n x y) (v x y)) ->
  forall st, fst (is_equiv W (S n) (Some a) (Some b) st) = Ret true <-> pointwise (fun x y => v x y = true) l1 l2.
Proof.
  intros Hp N1 N2 Hne M1 M2 Hi Hk S1 S2 L Hv st.
  assert (s2 <> []) by (intro X; rewrite X, split_nil in S2; discriminate).
  rewrite (is_equiv_step _ _ _ _ _ _ Hp N1 N2 Hne).
  assert (exists b, pure_to (possible_tuple W (is_equiv_str W n) s1 s2) (b, true) /\
            (b = true <-> pointwise (fun x y => v x y = true) l1 l2)) as (c & Hc & Hb).
  { destruct (tuple_ordered W n s1 s2 k l1 l2 v Hk S1 S2 L Hv st) as (c & Hc & Hb). exists c. split; [|exact Hb].
    intro st'. destruct (tuple_ordered W n s1 s2 k l1 l2 v Hk S1 S2 L Hv st') as (c' & Hc' & Hb').
    rewrite Hc'. do 2 f_equal. assert (c = true <-> c' = true) as X by (rewrite Hb, Hb'; reflexivity).
    destruct c, c'; try reflexivity; destruct X; intuition congruence. }
  pose proof (pure_try_except _ (ret false) _ (latex_of_tuple _ _ _ _ _ M1 M2 H Hi Hc) st) as X.
  rewrite X, <- Hb. split; [intros [= ->]; reflexivity|intros ->; reflexivity].
Qed.

Lemma is_equiv_unordered W n a b s1 s2 l1 l2 d1 d2 (v : pystr -> pystr -> bool) :
  ~ equal_up_to_padding is_space a b -> normal_form W a s1 -> normal_form W b s2 -> s1 <> s2 ->
  str_is_mat s1 = false -> str_is_mat s2 = false -> not_intervals W s1 s2 ->
  split_tuple s1 None = Ret (SSeq KSet l1) -> split_tuple s2 None = Ret (SSeq KSet l2) ->
  Equivalence (fun x y => v x y = true) ->
  (forall x y, In x l1 -> In y l2 -> pure_to (is_equiv_str W n x y) (v x y)) ->
  distinct_elements l1 d1 -> distinct_elements l2 d2 -> length d1 = length d2 ->
  forall st, fst (is_equiv W (S n) (Some a) (Some b) st) = Ret true <->
             matching (fun x y => v x y = true) d1 d2 [].
Proof.
  intros Hp N1 N2 Hne M1 M2 Hi S1 S2 Eq Hv D1 D2 L st.
  assert (s2 <> []) by (intro X; rewrite X, split_nil in S2; discriminate).
  rewrite (is_equiv_step _ _ _ _ _ _ Hp N1 N2 Hne).
  pose proof (tuple_set_complete W n s1 s2 l1 l2 v d1 d2 S1 S2 Eq Hv D1 D2 L) as T.
  assert (exists b, pure_to (possible_tuple W (is_equiv_str W n) s1 s2) (b, true) /\
            (b = true <-> matching (fun x y => v x y = true) d1 d2 [])) as (c & Hc & Hb).
  { destruct (T st) as (c & Hc & Hb). exists c. split; [|exact Hb].
    intro st'. destruct (T st') as (c' & Hc' & Hb').
    rewrite Hc'. do 2 f_equal. assert (c = true <-> c' = true) as X by (rewrite Hb, Hb'; reflexivity).
    destruct c, c'; try reflexivity; destruct X; intuition congruence. }
  pose proof (pure_try_except _ (ret false) _ (latex_of_tuple _ _ _ _ _ M1 M2 H Hi Hc) st) as X.
  rewrite X, <- Hb. split; [intros [= ->]; reflexivity|intros ->; reflexivity].
Qed.

(** Whatever the back end does, an accepted pair was accepted by one of the four rules. *)
Lemma latex_sound W rec gt gv st :
  fst (is_latex_equiv W rec gt gv st) = Ret true ->
  (has_bracket gt = true /\ exists st' sp, fst (possible_intervals W gt gv st') = Ret (true, sp)) \/
  (exists st' sp, fst (possible_tuple W rec gt gv st') = Ret (true, sp)) \/
  ((str_is_mat gt || str_is_mat gv = true) /\ exists st' sp, fst (possible_matrix W rec gt gv st') = Ret (true, sp)) \/
  ((exists st', fst (possible_tuple W rec gt gv st') = Ret (false, false) \/
               (str_is_mat gt || str_is_mat gv = true) /\ fst (possible_matrix W rec gt gv st') = Ret (false, false)) /\
   exists st', fst (equal_with_simplify W gt gv st') = Ret true).
Proof.
  unfold is_latex_equiv. destruct gv as [|c gv]; [discriminate|].
  generalize (c :: gv) as gv'. clear c gv. intro gv. intro H.
  apply bind_inv_fst in H. destruct H as ([b1 p1] & st1 & E1 & H).
  apply bind_inv_fst in H. destruct H as ([b2 p2] & st2 & E2 & H).
  apply bind_inv_fst in H. destruct H as ([b3 p3] & st3 & E3 & H).
  cbn [fst snd] in *.
  destruct b1.
  - left. destruct (has_bracket gt); [|discriminate]. split; [reflexivity|]. exists st, p1. rewrite E1. reflexivity.
  - right. destruct b2.
    + left. exists st1, p2. rewrite E2. reflexivity.
    + right. cbn [negb andb] in E3. destruct (str_is_mat gt || str_is_mat gv) eqn:M.
      * destruct b3; [left; split; [reflexivity|]; exists st2, p3; rewrite E3; reflexivity|].
        right. cbn [negb andb] in H. destruct p3; [discriminate|]. cbn [negb] in H.
        split; [exists st2; right; split; [reflexivity|]; rewrite E3; reflexivity|].
        unfold are_equal_under_sympy, try_bare in H.
        destruct (bind _ _ st3) as [[x|e] st4] eqn:B; [|discriminate]. cbn in H. injection H as ->.
        apply bind_inv in B. destruct B as (y & st5 & B & C). injection C as <- <-.
        exists st3. rewrite B. reflexivity.
      * injection E3 as <- <- <-. cbn [negb andb] in H. destruct p2; [discriminate|]. cbn [negb] in H.
        right. split; [exists st1; left; rewrite E2; reflexivity|].
        unfold are_equal_under_sympy, try_bare in H.
        destruct (bind _ _ st2) as [[x|e] st4] eqn:B; [|discriminate]. cbn in H. injection H as ->.
        apply bind_inv in B. destruct B as (y & st5 & B & C). injection C as <- <-.
        exists st2. rewrite B. reflexivity.
Qed.

Lemma try_false_inv {S} (m : M S bool) st : fst (try_except m (ret false) st) = Ret true -> fst (m st) = Ret true.
Proof.
  unfold try_except. destruct (m st) as [[x|e] st']; cbn; [auto|]. destruct (is_Exception e); discriminate.
Qed.

Lemma is_equiv_unordered_sound W n a b s1 s2 l1 l2 st :
  ~ equal_up_to_padding is_space a b -> normal_form W a s1 -> normal_form W b s2 -> s1 <> s2 ->
  str_is_mat s1 = false -> str_is_mat s2 = false -> not_intervals W s1 s2 ->
  split_tuple s1 None = Ret (SSeq KSet l1) -> split_tuple s2 None = Ret (SSeq KSet l2) ->
  fst (is_equiv W (S n) (Some a) (Some b) st) = Ret true ->
  exists d1 d2 rest,
    distinct_elements l1 d1 /\ distinct_elements l2 d2 /\
    matching (fun x y => exists st', fst (is_equiv_str W n x y st') = Ret true) d1 d2 rest /\
    (~ In (u "\in") l2 -> rest = []).
Proof.
  intros Hp N1 N2 Hne M1 M2 Hi S1 S2 H.
  rewrite (is_equiv_step _ _ _ _ _ _ Hp N1 N2 Hne) in H. apply try_false_inv, latex_sound in H.
  rewrite M1, M2 in H. cbn [orb] in H.
  destruct H as [[B (st' & sp & X)]|[(st' & sp & X)|[[X _]|[(st' & [X|[X _]]) _]]]]; try discriminate.
  - destruct (Hi B) as (sp' & Y). rewrite (Y st') in X. discriminate.
  - eapply tuple_set_sound; eauto.
  - rewrite (possible_tuple_seq _ _ _ _ _ _ _ _ S1 S2) in X.
    apply bind_inv_fst in X. destruct X as (c & st1 & E & X). discriminate.
Qed.

(** A pair of sequences of different kind or size is rejected whatever the back end says. *)
Lemma is_equiv_reject W n a b s1 s2 k1 l1 k2 l2 :
  ~ equal_up_to_padding is_space a b -> normal_form W a s1 -> normal_form W b s2 -> s1 <> s2 ->
  str_is_mat s1 = false -> str_is_mat s2 = false -> not_intervals W s1 s2 ->
  split_tuple s1 None = Ret (SSeq k1 l1) -> split_tuple s2 None = Ret (SSeq k2 l2) ->
  (k1 <> k2 \/ size_of W k1 l1 <> size_of W k2 l2 /\ ~ In (u "\in") l2) ->
  forall st, fst (is_equiv W (S n) (Some a) (Some b) st) = Ret false.
Proof.
  intros Hp N1 N2 Hne M1 M2 Hi S1 S2 H st.
  assert (s2 <> []) by (intro X; rewrite X, split_nil in S2; discriminate).
  rewrite (is_equiv_step _ _ _ _ _ _ Hp N1 N2 Hne).
  apply pure_try_except. apply latex_of_tuple; auto.
  intro st'. rewrite (tuple_reject _ _ _ _ _ _ _ _ S1 S2 H). reflexivity.
Qed.

Lemma is_equiv_in_prefix W n a b s1 s2 k l1 l2 :
  ~ equal_up_to_padding is_space a b -> normal_form W a s1 -> normal_form W b s2 -> s1 <> s2 ->
  str_is_mat s1 = false -> str_is_mat s2 = false -> not_intervals W s1 s2 ->
  k <> KSet -> split_tuple s1 None = Ret (SSeq k l1) -> split_tuple s2 None = Ret (SSeq k l2) ->
  In (u "\in") l2 ->
  (forall i x y, nth_error l1 i = Some x -> nth_error l2 i = Some y ->
                 pure_to (is_equiv_str W n x y) true) ->
  forall st, fst (is_equiv W (S n) (Some a) (Some b) st) = Ret true.
Proof.
  intros Hp N1 N2 Hne M1 M2 Hi Hk S1 S2 Hin Hv st.
  assert (s2 <> []) by (intro X; rewrite X, split_nil in S2; discriminate).
  rewrite (is_equiv_step _ _ _ _ _ _ Hp N1 N2 Hne).
  apply pure_try_except. apply latex_of_tuple; auto.
  intro st'. eapply tuple_in_prefix; eauto.
Qed.

Lemma is_equiv_matrix W n a b s1 s2 l1 l2 sp (v : pystr -> pystr -> bool) :
  ~ equal_up_to_padding is_space a b -> normal_form W a s1 -> normal_form W b s2 -> s1 <> s2 ->
  s2 <> [] -> (str_is_mat s1 || str_is_mat s2 = true) -> not_intervals W s1 s2 ->
  pure_to (possible_tuple W (is_equiv_str W n) s1 s2) (false, sp) ->
  split_matrix s1 = Ret (MRows l1) -> split_matrix s2 = Ret (MRows l2) ->
  (forall c d x y, In c l1 -> In d l2 -> in_cell x c -> in_cell y d -> pure_to (is_equiv_str W n x y) (v x y)) ->
  forall st, fst (is_equiv W (S n) (Some a) (Some b) st) = Ret true <->
             pointwise (cell_rel (fun x y => v x y = true)) l1 l2.
Proof.
  intros Hp N1 N2 Hne Hs M Hi Ht S1 S2 Hv st.
  rewrite (is_equiv_step _ _ _ _ _ _ Hp N1 N2 Hne).
  pose proof (possible_matrix_rows W _ s1 s2 l1 l2 v S1 S2 Hv) as T.
  assert (exists b, pure_to (possible_matrix W (is_equiv_str W n) s1 s2) (b, true) /\
            (b = true <-> pointwise (cell_rel (fun x y => v x y = true)) l1 l2)) as (c & Hc & Hb).
  { destruct (T st) as (c & Hc & Hb). exists c. split; [|exact Hb].
    intro st'. destruct (T st') as (c' & Hc' & Hb').
    rewrite Hc'. do 2 f_equal. assert (c = true <-> c' = true) as X by (rewrite Hb, Hb'; reflexivity).
    destruct c, c'; try reflexivity; destruct X; intuition congruence. }
  assert (P : pure_to (is_latex_equiv W (is_equiv_str W n) s1 s2) c).
  { unfold is_latex_equiv. destruct s2 as [|ch s2]; [contradiction|]. rewrite M.
    assert (exists s, pure_to (if has_bracket s1 then possible_intervals W s1 (ch :: s2) else ret (false, false)) (false, s)) as (s & Hs').
    { unfold not_intervals in Hi. destruct (has_bracket s1); [auto|exists false; apply pure_ret]. }
    eapply pure_bind; [exact Hs'|]. cbn [fst].
    eapply pure_bind; [exact Ht|]. cbn [fst negb andb].
    eapply pure_bind; [exact Hc|]. cbn [fst snd negb]. rewrite andb_false_r. apply pure_ret. }
  rewrite (pure_try_except _ (ret false) _ P st), <- Hb. split; [intros [= ->]; reflexivity|intros ->; reflexivity].
Qed.
