(** Proofs about Eval.v. *)
From Coq Require Import String List NArith ZArith Bool Permutation Lia.
From Verif Require Import PyStr PyStrTheory Regex Normalize Monad MonadTheory Split Eval Spec.
Import ListNotations.
Local Open Scope mon_scope.

Section Exceptions.
Variable W : World.
Variable Q : exn -> Prop.
Hypothesis HQ : forall x y, raises_only (fun e => is_Exception e = true \/ Q e) (interval_compare W x y).
Let R e := is_Exception e = true \/ Q e.
Variable rec : pystr -> pystr -> M (St W) bool.
Hypothesis Hrec : forall x y, raises_only R (rec x y).

Lemma ro_lift_split s k : raises_only R (lift W (split_tuple s k)).
Proof.
  intros st e. unfold lift; cbn. unfold split_tuple.
  destruct (scan (strip_commas s) 0%Z true) as [c r].
  destruct (negb (c =? 0)%Z); [intros [= <-]; left; reflexivity|].
  destruct (unwrap r (strip_commas s)) as [x k'].
  destruct (split_commas x 0 []) as [|? [|? ?]]; discriminate.
Qed.
Lemma split_tuple_exn s k e : split_tuple s k = Raise e -> e = AssertionError.
Proof.
  unfold split_tuple.
  destruct (scan (strip_commas s) 0%Z true) as [c r].
  destruct (negb (c =? 0)%Z); [congruence|].
  destruct (unwrap r (strip_commas s)) as [x k'].
  destruct (split_commas x 0 []) as [|? [|? ?]]; discriminate.
Qed.
Lemma map_res_exn {A B} (f : A -> res B) (P : exn -> Prop) l e :
  (forall x e, f x = Raise e -> P e) -> map_res f l = Raise e -> P e.
Proof.
  intro H. induction l as [|x l IH]; cbn; [discriminate|].
  destruct (f x) eqn:E; [|intros [= <-]; eauto].
  destruct (map_res f l); [discriminate|]. exact IH.
Qed.
Lemma split_matrix_exn s e : split_matrix s = Raise e -> e = AssertionError.
Proof.
  unfold split_matrix. destruct (re_search matrix_re s); [discriminate|].
  destruct (split_tuple s (Some KList)) eqn:E; [|intros [= <-]; eapply split_tuple_exn; eauto].
  match goal with |- context [map_res ?f ?l] => destruct (map_res f l) eqn:F end; [discriminate|].
  intros [= <-]. refine (map_res_exn _ (fun e => e = AssertionError) _ _ _ F). intros; eapply split_tuple_exn; eauto.
Qed.
Lemma ro_lift_matrix s : raises_only R (lift W (split_matrix s)).
Proof. intros st e H. cbn in H. apply split_matrix_exn in H. subst. left; reflexivity. Qed.

Lemma ro_intervals a b : raises_only R (possible_intervals W a b).
Proof.
  unfold possible_intervals, str_to_interval.
  apply ro_bind; [apply ro_try_bare, ro_ret|intro x].
  apply ro_bind; [apply ro_try_bare, ro_ret|intro y].
  destruct x, y; try apply ro_ret. apply ro_bind; [apply HQ|intro; apply ro_ret].
Qed.
Lemma ro_all_zip l1 l2 : raises_only R (all_zip W rec l1 l2).
Proof.
  revert l2; induction l1 as [|x l1 IH]; intros [|y l2]; try apply ro_ret.
  cbn. apply ro_bind; [apply Hrec|intros []]; [apply IH|apply ro_ret].
Qed.
Lemma ro_find_match g l : raises_only R (find_match W rec g l).
Proof.
  induction l as [|[v []] l IH]; [apply ro_ret| |].
  all: cbn; apply ro_bind; [first [apply ro_ret|apply Hrec]|intros []]; try apply ro_ret.
  all: apply ro_bind; [apply IH|intro; apply ro_ret].
Qed.
Lemma ro_greedy l1 l2 : raises_only R (greedy W rec l1 l2).
Proof.
  revert l2; induction l1 as [|g l1 IH]; intro l2; [apply ro_ret|].
  cbn. apply ro_bind; [apply ro_find_match|intro r].
  apply ro_bind; [apply IH|intro; apply ro_ret].
Qed.
Lemma ro_compare_elems a b : raises_only R (compare_elems W rec a b).
Proof.
  unfold compare_elems. destruct (_ && _); [apply ro_ret|].
  destruct a as [?|[] l1], b as [?|[] l2]; try apply ro_ret; cbn;
    first [apply ro_all_zip|apply ro_greedy].
Qed.
Lemma ro_tuple a b : raises_only R (possible_tuple W rec a b).
Proof.
  unfold possible_tuple. apply ro_bind; [apply ro_lift_split|intro x].
  apply ro_bind; [apply ro_lift_split|intro y].
  destruct x, y; try (apply ro_bind; [apply ro_compare_elems|intro; apply ro_ret]).
  destruct (_ && _); [apply ro_ret|]. apply ro_bind; [apply Hrec|intro; apply ro_ret].
Qed.
Lemma ro_all_rows l1 l2 : raises_only R (all_rows W rec l1 l2).
Proof.
  revert l2; induction l1 as [|x l1 IH]; intros [|y l2]; try apply ro_ret; cbn.
  destruct x, y; try apply ro_ret.
    - apply ro_bind; [apply Hrec|intros []]; [apply IH|apply ro_ret].
    - destruct (negb _); [apply ro_ret|].
      apply ro_bind; [apply ro_all_zip|intros []]; [apply IH|apply ro_ret].
Qed.
Lemma ro_matrix a b : raises_only R (possible_matrix W rec a b).
Proof.
  unfold possible_matrix. apply ro_bind; [apply ro_lift_matrix|intro x].
  apply ro_bind; [apply ro_lift_matrix|intro y].
  destruct x, y; try apply ro_ret.
  - destruct (_ && _); [apply ro_ret|]. apply ro_bind; [apply Hrec|intro; apply ro_ret].
  - destruct (negb _); [apply ro_ret|]. apply ro_bind; [apply ro_all_rows|intro; apply ro_ret].
Qed.
Lemma ro_sympy P a b : raises_only P (are_equal_under_sympy W a b).
Proof. apply ro_try_bare, ro_ret. Qed.
Lemma ro_latex a b : raises_only R (is_latex_equiv W rec a b).
Proof.
  unfold is_latex_equiv. destruct b as [|c b]; [apply ro_ret|].
  apply ro_bind; [destruct (has_bracket a); [apply ro_intervals|apply ro_ret]|intro p].
  apply ro_bind; [destruct (fst p); [apply ro_ret|apply ro_tuple]|intro q].
  apply ro_bind; [destruct (_ && _); [apply ro_matrix|apply ro_ret]|intro r].
  destruct (_ && _); [apply ro_sympy|apply ro_ret].
Qed.
Lemma ro_any_given cmp g l : (forall x y, raises_only R (cmp x y)) -> raises_only R (any_given W cmp g l).
Proof.
  intro H. induction l as [|v l IH]; [apply ro_ret|]. cbn.
  apply ro_bind; [apply H|intros []]; [apply ro_ret|apply IH].
Qed.
Lemma ro_any_pair cmp l1 l2 : (forall x y, raises_only R (cmp x y)) -> raises_only R (any_pair W cmp l1 l2).
Proof.
  intro H. induction l1 as [|v l1 IH]; [apply ro_ret|]. cbn.
  apply ro_bind; [apply ro_any_given, H|intros []]; [apply ro_ret|apply IH].
Qed.
Lemma ro_compare_norm a b : raises_only Q (compare_norm W rec a b).
Proof.
  unfold compare_norm. apply ro_try_except; [|apply ro_ret].
  destruct a, b; try apply ro_latex; apply ro_any_pair; intros; apply ro_latex.
Qed.
Lemma ro_body a b : raises_only Q (is_equiv_body W rec a b).
Proof.
  unfold is_equiv_body. destruct (str_eqb _ _); [apply ro_ret|].
  destruct (string_normalize _ a), (string_normalize _ b); try apply ro_compare_norm.
  destruct (str_eqb _ _); [apply ro_ret|apply ro_compare_norm].
Qed.
End Exceptions.

Lemma ro_is_equiv_str W Q n :
  (forall x y, raises_only (fun e => is_Exception e = true \/ Q e) (interval_compare W x y)) ->
  forall a b, raises_only (fun e => e = RecursionError /\ n = O \/ Q e) (is_equiv_str W n a b).
Proof.
  intro H. induction n as [|n IH]; intros a b; cbn.
  - apply ro_raise. auto.
  - eapply ro_weaken; [|apply (ro_body W Q H)]; [intros; right; assumption|].
    intros x y. eapply ro_weaken; [|apply IH]. cbn. intros e [[-> _]|He]; [left; reflexivity|right; exact He].
Qed.

(** Whatever escapes from [is_equiv] is an interrupt raised by the interval comparison. *)
Lemma is_equiv_raises W n gt gv st e :
  fst (is_equiv W (S n) gt gv st) = Raise e ->
  is_Exception e = false /\ exists x y st', fst (interval_compare W x y st') = Raise e.
Proof.
  set (Q := fun e => is_Exception e = false /\ exists x y st', fst (interval_compare W x y st') = Raise e).
  assert (HQ : forall x y, raises_only (fun e => is_Exception e = true \/ Q e) (interval_compare W x y)).
  { intros x y st1 e1 He1. destruct (is_Exception e1) eqn:X; [left; reflexivity|right].
    split; [exact X|]. eauto. }
  destruct gt as [a|], gv as [b|]; cbn; try discriminate.
  intro H. assert (X : raises_only (fun e => e = RecursionError /\ S n = O \/ Q e) (is_equiv_str W (S n) a b))
    by (apply ro_is_equiv_str, HQ).
  destruct (X st e H) as [[_ D]|HQe]; [discriminate|exact HQe].
Qed.

Lemma is_equiv_total W n gt gv st :
  (forall x y st' e, fst (interval_compare W x y st') = Raise e -> is_Exception e = true) ->
  exists b, fst (is_equiv W (S n) gt gv st) = Ret b.
Proof.
  intro H. destruct (fst (is_equiv W (S n) gt gv st)) as [b|e] eqn:E; [eauto|].
  apply is_equiv_raises in E. destruct E as (X & x & y & st' & E). apply H in E. congruence.
Qed.

(** Reflexivity up to padding *)
Lemma strip_padding a b : equal_up_to_padding is_space a b -> strip a = strip b.
Proof.
  intros (core & w1 & w2 & w3 & w4 & -> & -> & F).
  rewrite !Forall_app in F. destruct F as (F1 & F2 & F3 & F4).
  unfold strip. rewrite !strip_by_pad; try reflexivity; apply forallb_forall; apply Forall_forall; assumption.
Qed.
Lemma padding_strip a b : strip a = strip b -> equal_up_to_padding is_space a b.
Proof.
  intro H. destruct (strip_by_spec is_space a) as (w1 & w2 & Ea & H1 & H2).
  destruct (strip_by_spec is_space b) as (w3 & w4 & Eb & H3 & H4).
  exists (strip a), w1, w2, w3, w4. split; [exact Ea|]. split; [rewrite H; exact Eb|].
  rewrite !Forall_app, !Forall_forall.
  rewrite forallb_forall in H1, H2, H3, H4. auto.
Qed.
Lemma is_equiv_refl W n a b : equal_up_to_padding is_space a b ->
  quiet (is_equiv W (S n) (Some a) (Some b)) true.
Proof.
  intros H st. cbn. unfold is_equiv_body. rewrite (strip_padding _ _ H), str_eqb_refl. reflexivity.
Qed.

Lemma is_equiv_same_norm W n a b s :
  string_normalize (int_str W) a = NStr s -> string_normalize (int_str W) b = NStr s ->
  quiet (is_equiv W (S n) (Some a) (Some b)) true.
Proof.
  intros Ha Hb st. cbn. unfold is_equiv_body. destruct (str_eqb (strip a) (strip b)); [reflexivity|].
  rewrite Ha, Hb, str_eqb_refl. reflexivity.
Qed.

Lemma any_pair_false W cmp l1 l2 :
  (forall x y, In x l1 -> In y l2 -> quiet (cmp x y) false) -> quiet (any_pair W cmp l1 l2) false.
Proof.
  intro H. induction l1 as [|g l1 IH]; [apply quiet_ret|]. cbn.
  eapply quiet_bind with (a := false).
  - assert (forall y, In y l2 -> quiet (cmp g y) false) as Hg by (intros; apply H; [left; reflexivity|assumption]).
    clear - Hg. induction l2 as [|v l2 IH]; [apply quiet_ret|]. cbn.
    eapply quiet_bind; [apply Hg; left; reflexivity|]. cbn. apply IH. intros; apply Hg; right; assumption.
  - cbn. apply IH. intros; apply H; [right|]; assumption.
Qed.

Lemma is_equiv_empty_prediction W n a b :
  ~ equal_up_to_padding is_space a b ->
  string_normalize (int_str W) b = NStr [] ->
  string_normalize (int_str W) a <> NStr [] ->
  quiet (is_equiv W (S n) (Some a) (Some b)) false.
Proof.
  intros Hp Hb Ha st. cbn. unfold is_equiv_body.
  destruct (str_eqb (strip a) (strip b)) eqn:E.
  { apply str_eqb_eq, padding_strip in E. contradiction. }
  rewrite Hb. destruct (string_normalize (int_str W) a) as [s|l] eqn:Ea.
  - destruct (str_eqb s []) eqn:Es; [apply str_eqb_eq in Es; subst; congruence|].
    unfold compare_norm. apply quiet_try_except, quiet_ret.
  - unfold compare_norm. apply quiet_try_except. apply any_pair_false.
    intros x y _ [<-|[]]. apply quiet_ret.
Qed.

(** Several readings *)
Section Readings.
Variable W : World.
Variable cmp : pystr -> pystr -> M (St W) bool.

Lemma any_given_pure g l (v : pystr -> pystr -> bool) :
  (forall y, In y l -> pure_to (cmp g y) (v g y)) ->
  pure_to (any_given W cmp g l) (existsb (v g) l).
Proof.
  intro H. induction l as [|y l IH]; [apply pure_ret|]. cbn.
  eapply pure_bind; [apply H; left; reflexivity|]. destruct (v g y); cbn; [apply pure_ret|].
  apply IH. intros; apply H; right; assumption.
Qed.
Lemma any_pair_pure l1 l2 (v : pystr -> pystr -> bool) :
  (forall x y, In x l1 -> In y l2 -> pure_to (cmp x y) (v x y)) ->
  pure_to (any_pair W cmp l1 l2) (existsb (fun x => existsb (v x) l2) l1).
Proof.
  intro H. induction l1 as [|x l1 IH]; [apply pure_ret|]. cbn.
  eapply pure_bind; [apply any_given_pure; intros; apply H; [left; reflexivity|assumption]|].
  destruct (existsb (v x) l2); cbn; [apply pure_ret|].
  apply IH. intros; apply H; [right|]; assumption.
Qed.
Lemma any_given_sound g l st :
  fst (any_given W cmp g l st) = Ret true -> exists y st', In y l /\ fst (cmp g y st') = Ret true.
Proof.
  revert st; induction l as [|y l IH]; intro st; cbn; [discriminate|].
  intro H. apply bind_inv_fst in H. destruct H as ([] & st1 & E & H).
  - exists y, st. rewrite E. auto.
  - apply IH in H. destruct H as (y' & st' & ? & ?). exists y', st'. auto.
Qed.
Lemma any_pair_sound l1 l2 st :
  fst (any_pair W cmp l1 l2 st) = Ret true ->
  exists x y st', In x l1 /\ In y l2 /\ fst (cmp x y st') = Ret true.
Proof.
  revert st; induction l1 as [|x l1 IH]; intro st; cbn; [discriminate|].
  intro H. apply bind_inv_fst in H. destruct H as ([] & st1 & E & H).
  - assert (fst (any_given W cmp x l2 st) = Ret true) as G by (rewrite E; reflexivity).
    apply any_given_sound in G. destruct G as (y & st' & ? & ?). exists x, y, st'. auto.
  - apply IH in H. destruct H as (x' & y & st' & ? & ? & ?). exists x', y, st'. auto.
Qed.
End Readings.

(** The strings an answer may be read as. *)
Definition reading_of (x : pystr) (v : norm) : Prop :=
  match v with NStr s => x = s | NSet l => In x l end.

Lemma readings_spec W v x : In x (readings W v) <-> reading_of x v.
Proof.
  destruct v as [s|l]; cbn; [intuition|].
  rewrite <- (nodup_In str_eq_dec l x). split; intro H.
  - eapply Permutation_in; [apply set_iter_ok|exact H].
  - eapply Permutation_in; [apply Permutation_sym, set_iter_ok|exact H].
Qed.

Definition is_set_norm (v : norm) : Prop := match v with NSet _ => True | NStr _ => False end.

Lemma is_equiv_readings W n a b (v : pystr -> pystr -> bool) :
  ~ equal_up_to_padding is_space a b ->
  is_set_norm (string_normalize (int_str W) a) \/ is_set_norm (string_normalize (int_str W) b) ->
  (forall x y, reading_of x (string_normalize (int_str W) a) ->
               reading_of y (string_normalize (int_str W) b) ->
               pure_to (is_latex_equiv W (is_equiv_str W n) x y) (v x y)) ->
  forall st, fst (is_equiv W (S n) (Some a) (Some b) st) = Ret true <->
    exists x y, reading_of x (string_normalize (int_str W) a) /\
                reading_of y (string_normalize (int_str W) b) /\ v x y = true.
Proof.
  intros Hp Hs Hv st. cbn [is_equiv is_equiv_str]. unfold is_equiv_body.
  destruct (str_eqb (strip a) (strip b)) eqn:E.
  { apply str_eqb_eq, padding_strip in E. contradiction. }
  set (A := string_normalize (int_str W) a) in *. set (B := string_normalize (int_str W) b) in *.
  assert (Hpure : pure_to (any_pair W (is_latex_equiv W (is_equiv_str W n)) (readings W A) (readings W B))
             (existsb (fun x => existsb (v x) (readings W B)) (readings W A))).
  { apply any_pair_pure. intros x y Hx Hy. apply Hv; apply readings_spec with (W := W); assumption. }
  assert (Heq : fst (compare_norm W (is_equiv_str W n) A B st) =
          Ret (existsb (fun x => existsb (v x) (readings W B)) (readings W A))).
  { unfold compare_norm. destruct A as [s|l], B as [s'|l']; [destruct Hs as [[]|[]]| | |];
    apply (pure_try_except _ _ _ Hpure st). }
  assert (Hm : fst (match A, B with
     | NStr s1, NStr s2 => if str_eqb s1 s2 then ret true else compare_norm W (is_equiv_str W n) A B
     | _, _ => compare_norm W (is_equiv_str W n) A B end st) =
     Ret (existsb (fun x => existsb (v x) (readings W B)) (readings W A))).
  { destruct A, B; [destruct Hs as [[]|[]]| | |]; exact Heq. }
  rewrite Hm. split.
  - intros [= H]. apply existsb_exists in H. destruct H as (x & Hx & H).
    apply existsb_exists in H. destruct H as (y & Hy & H).
    exists x, y. rewrite <- !(readings_spec W). auto.
  - intros (x & y & Hx & Hy & H). f_equal. apply existsb_exists. exists x.
    rewrite (readings_spec W). split; [exact Hx|]. apply existsb_exists. exists y.
    rewrite (readings_spec W). auto.
Qed.

(** Soundness for arbitrary (stateful, raising) back ends *)
Lemma is_equiv_readings_sound W n a b st :
  fst (is_equiv W (S n) (Some a) (Some b) st) = Ret true ->
  equal_up_to_padding is_space a b \/
  (exists s, string_normalize (int_str W) a = NStr s /\ string_normalize (int_str W) b = NStr s) \/
  exists x y st', reading_of x (string_normalize (int_str W) a) /\
                  reading_of y (string_normalize (int_str W) b) /\
                  fst (is_latex_equiv W (is_equiv_str W n) x y st') = Ret true.
Proof.
  cbn [is_equiv is_equiv_str]. unfold is_equiv_body.
  destruct (str_eqb (strip a) (strip b)) eqn:E.
  { apply str_eqb_eq, padding_strip in E. auto. }
  set (A := string_normalize (int_str W) a). set (B := string_normalize (int_str W) b).
  intro H. right.
  assert (G : (exists s, A = NStr s /\ B = NStr s) \/ fst (compare_norm W (is_equiv_str W n) A B st) = Ret true).
  { destruct A as [s|l], B as [s'|l']; auto.
    destruct (str_eqb s s') eqn:E'; [apply str_eqb_eq in E'; subst; left; eauto|auto]. }
  destruct G as [G|G]; [left; exact G|right]. clear H.
  unfold compare_norm, try_except in G.
  assert (K : exists x y st', In x (readings W A) /\ In y (readings W B) /\
               fst (is_latex_equiv W (is_equiv_str W n) x y st') = Ret true).
  { destruct A as [s|l], B as [s'|l'].
    - exists s, s', st. cbn. destruct (is_latex_equiv W (is_equiv_str W n) s s' st) as [[x|e] st1];
        [|destruct (is_Exception e); discriminate]. cbn in *. auto.
    - apply any_pair_sound with (st := st).
      destruct (any_pair _ _ _ _ st) as [[x|e] st1]; [|destruct (is_Exception e); discriminate]. exact G.
    - apply any_pair_sound with (st := st).
      destruct (any_pair _ _ _ _ st) as [[x|e] st1]; [|destruct (is_Exception e); discriminate]. exact G.
    - apply any_pair_sound with (st := st).
      destruct (any_pair _ _ _ _ st) as [[x|e] st1]; [|destruct (is_Exception e); discriminate]. exact G. }
  destruct K as (x & y & st' & Hx & Hy & K). exists x, y, st'. rewrite <- !(readings_spec W). auto.
Qed.

(** Ordered sequences *)
Section Zip.
Variable W : World.
Variable rec : pystr -> pystr -> M (St W) bool.

Lemma all_zip_pure (v : pystr -> pystr -> bool) l1 l2 :
  (forall x y, In x l1 -> In y l2 -> pure_to (rec x y) (v x y)) ->
  pure_to (all_zip W rec l1 l2) (forallb (fun p => v (fst p) (snd p)) (combine l1 l2)).
Proof.
  revert l2; induction l1 as [|x l1 IH]; intros [|y l2] H; try apply pure_ret. cbn.
  eapply pure_bind; [apply H; left; reflexivity|].
  destruct (v x y); cbn; [|apply pure_ret]. apply IH. intros; apply H; right; assumption.
Qed.
Lemma forallb_combine (v : pystr -> pystr -> bool) l1 l2 : length l1 = length l2 ->
  forallb (fun p => v (fst p) (snd p)) (combine l1 l2) = true <-> Forall2 (fun x y => v x y = true) l1 l2.
Proof.
  revert l2; induction l1 as [|x l1 IH]; intros [|y l2] H; try discriminate; cbn; [split; auto|].
  rewrite andb_true_iff, IH by (cbn in H; lia). split; [intros []; auto|inversion 1; auto].
Qed.
Lemma all_zip_sound l1 l2 st :
  fst (all_zip W rec l1 l2 st) = Ret true ->
  Forall (fun p => exists st', fst (rec (fst p) (snd p) st') = Ret true) (combine l1 l2).
Proof.
  revert l2 st; induction l1 as [|x l1 IH]; intros [|y l2] st; cbn; intro H; try constructor.
  - apply bind_inv_fst in H. destruct H as ([] & st1 & E & H); [|discriminate].
    exists st. cbn. rewrite E. reflexivity.
  - apply bind_inv_fst in H. destruct H as ([] & st1 & E & H); [|discriminate]. eapply IH, H.
Qed.
End Zip.

Lemma kind_eqb_refl k : kind_eqb k k = true.
Proof. destruct k; reflexivity. Qed.
Lemma kind_eqb_eq a b : kind_eqb a b = true <-> a = b.
Proof. destruct a, b; cbn; split; congruence. Qed.

Lemma possible_tuple_seq W rec gt gv k1 l1 k2 l2 :
  split_tuple gt None = Ret (SSeq k1 l1) -> split_tuple gv None = Ret (SSeq k2 l2) ->
  forall st, possible_tuple W rec gt gv st =
    bind (compare_elems W rec (SSeq k1 l1) (SSeq k2 l2)) (fun c => ret (c, true)) st.
Proof. intros H1 H2 st. unfold possible_tuple, lift. rewrite H1, H2. reflexivity. Qed.

Lemma tuple_ordered W n gt gv k l1 l2 (v : pystr -> pystr -> bool) :
  k <> KSet ->
  split_tuple gt None = Ret (SSeq k l1) -> split_tuple gv None = Ret (SSeq k l2) ->
  length l1 = length l2 ->
  (forall x y, In x l1 -> In y l2 -> pure_to (is_equiv_str W n x y) (v x y)) ->
  forall st, exists b, fst (possible_tuple W (is_equiv_str W n) gt gv st) = Ret (b, true) /\
                 (b = true <-> pointwise (fun x y => v x y = true) l1 l2).
Proof.
  intros Hk H1 H2 Hl Hv st. exists (forallb (fun p => v (fst p) (snd p)) (combine l1 l2)).
  rewrite pointwise_Forall2. split; [|apply forallb_combine, Hl].
  rewrite (possible_tuple_seq _ _ _ _ _ _ _ _ H1 H2).
  assert (P : pure_to (compare_elems W (is_equiv_str W n) (SSeq k l1) (SSeq k l2))
            (forallb (fun p => v (fst p) (snd p)) (combine l1 l2))).
  { unfold compare_elems. cbn [py_len]. assert (elems W k l1 = l1) as -> by (destruct k; [reflexivity|reflexivity|contradiction Hk; reflexivity]).
    assert (elems W k l2 = l2) as -> by (destruct k; [reflexivity|reflexivity|contradiction Hk; reflexivity]).
    rewrite Hl, Nat.eqb_refl. cbn [negb andb]. rewrite kind_eqb_refl. cbn [negb].
    destruct k; [apply all_zip_pure, Hv|apply all_zip_pure, Hv|contradiction Hk; reflexivity]. }
  revert st. eapply pure_bind; [exact P|]. apply pure_ret.
Qed.

(** \in element: only the common prefix is compared *)
Lemma tuple_in_prefix W n gt gv k l1 l2 :
  k <> KSet ->
  split_tuple gt None = Ret (SSeq k l1) -> split_tuple gv None = Ret (SSeq k l2) ->
  In (u "\in") l2 ->
  (forall i x y, nth_error l1 i = Some x -> nth_error l2 i = Some y ->
                 pure_to (is_equiv_str W n x y) true) ->
  forall st, fst (possible_tuple W (is_equiv_str W n) gt gv st) = Ret (true, true).
Proof.
  intros Hk H1 H2 Hin Hv st.
  rewrite (possible_tuple_seq _ _ _ _ _ _ _ _ H1 H2).
  assert (P : pure_to (compare_elems W (is_equiv_str W n) (SSeq k l1) (SSeq k l2)) true).
  { unfold compare_elems.
    assert (has_in (SSeq k l2) = true) as ->.
    { cbn [has_in]. apply existsb_exists. exists in_tok. split; [exact Hin|apply str_eqb_refl]. }
    rewrite andb_false_r, kind_eqb_refl. cbn [negb].
    assert (Z : pure_to (all_zip W (is_equiv_str W n) l1 l2) true).
    { clear - Hv. revert l2 Hv; induction l1 as [|x l1 IH]; intros [|y l2] Hv; try apply pure_ret.
      cbn. eapply pure_bind; [apply (Hv O); reflexivity|]. cbn. apply IH.
      intros i a b Ha Hb. apply (Hv (S i)); assumption. }
    destruct k; [exact Z|exact Z|contradiction Hk; reflexivity]. }
  revert st. eapply pure_bind; [exact P|]. apply pure_ret.
Qed.

(** Kinds and lengths *)
Definition size_of (W : World) (k : kind) (l : list pystr) : nat :=
  match k with KSet => length (nodup str_eq_dec l) | _ => length l end.
Lemma py_len_size W k l : py_len W (SSeq k l) = size_of W k l.
Proof.
  destruct k; cbn; try reflexivity. apply Permutation_length, set_iter_ok.
Qed.

Lemma tuple_reject W rec gt gv k1 l1 k2 l2 :
  split_tuple gt None = Ret (SSeq k1 l1) -> split_tuple gv None = Ret (SSeq k2 l2) ->
  (k1 <> k2 \/ size_of W k1 l1 <> size_of W k2 l2 /\ ~ In (u "\in") l2) ->
  quiet (possible_tuple W rec gt gv) (false, true).
Proof.
  intros H1 H2 H st.
  rewrite (possible_tuple_seq _ _ _ _ _ _ _ _ H1 H2).
  assert (Qt : quiet (compare_elems W rec (SSeq k1 l1) (SSeq k2 l2)) false).
  { unfold compare_elems. rewrite !py_len_size.
    destruct H as [H|[H Hin]].
    - destruct (_ && _); [apply quiet_ret|].
      destruct (kind_eqb k1 k2) eqn:E; [apply kind_eqb_eq in E; contradiction|apply quiet_ret].
    - apply Nat.eqb_neq in H. rewrite H.
      assert (has_in (SSeq k2 l2) = false) as ->.
      { cbn [has_in]. apply not_true_is_false. intro X. apply existsb_exists in X. destruct X as (x & Hx & E).
        apply str_eqb_eq in E. subst x. contradiction. }
      apply quiet_ret. }
  revert st. eapply quiet_bind; [exact Qt|]. apply quiet_ret.
Qed.

(** If the sequence rule rejects and no matrix text occurs, the verdict is the interval
    rule's alone: the symbolic back end is not consulted. *)
Lemma latex_no_fallback W rec gt gv :
  str_is_mat gt = false -> str_is_mat gv = false -> gv <> [] ->
  quiet (possible_tuple W rec gt gv) (false, true) ->
  forall st, is_latex_equiv W rec gt gv st =
    (if has_bracket gt then bind (possible_intervals W gt gv) (fun p => ret (fst p)) st else (Ret false, st)).
Proof.
  intros M1 M2 Hne Ht st. unfold is_latex_equiv. destruct gv as [|c gv]; [contradiction|].
  rewrite M1, M2. cbn [orb].
  destruct (has_bracket gt); unfold bind.
  - destruct (possible_intervals W gt (c :: gv) st) as [[[[] s]|e] st1]; cbn [fst snd negb andb]; try reflexivity.
    rewrite Ht. reflexivity.
  - cbn [ret fst snd]. rewrite Ht. reflexivity.
Qed.

(** Unordered answers *)
Section Greedy.
Variable W : World.
Variable rec : pystr -> pystr -> M (St W) bool.
Definition accepted x y := exists st, fst (rec x y st) = Ret true.

Definition unused (l : list (pystr * bool)) : list pystr := map fst (filter (fun p => negb (snd p)) l).

Lemma find_match_sound g l st r l' st' :
  find_match W rec g l st = (Ret (r, l'), st') ->
  if r then exists v, accepted g v /\ Permutation (unused l) (v :: unused l')
  else unused l' = unused l.
Proof.
  revert st r l' st'; induction l as [|[v used] l IH]; intros st r l' st' H; cbn in H.
  - injection H as <- <- _. reflexivity.
  - apply bind_inv in H. destruct H as (b & st1 & E & H). destruct b.
    + injection H as <- <- _. destruct used; [discriminate|].
      exists v. split; [exists st; rewrite E; reflexivity|]. cbn. reflexivity.
    + apply bind_inv in H. destruct H as ([r0 l0] & st2 & E2 & H). injection H as <- <- _.
      apply IH in E2. cbn [fst snd]. destruct r0.
      * destruct E2 as (w & A & P). exists w. split; [exact A|].
        destruct used; cbn; [exact P|]. rewrite P. apply perm_swap.
      * destruct used; cbn; [exact E2|]. f_equal. exact E2.
Qed.

Lemma greedy_sound gts gvs st :
  fst (greedy W rec gts gvs st) = Ret true ->
  exists rest, matching accepted gts (unused gvs) rest.
Proof.
  revert gvs st; induction gts as [|g gts IH]; intros gvs st H; cbn in H.
  - exists (unused gvs), []. split; [reflexivity|constructor].
  - apply bind_inv_fst in H. destruct H as ([r l'] & st1 & E & H).
    apply bind_inv_fst in H. destruct H as (b & st2 & E2 & H). cbn in H. injection H as H.
    apply andb_true_iff in H. destruct H as [-> ->].
    apply find_match_sound in E. destruct E as (v & A & P). cbn [snd] in *.
    destruct (IH l' st1) as (rest & m & P' & F); [rewrite E2; reflexivity|].
    exists rest, (v :: m). split; [|constructor; assumption].
    rewrite P, P'. reflexivity.
Qed.

(** Deterministic verdicts *)
Variable v : pystr -> pystr -> bool.

(** first unused element accepted by [v g] *)
Fixpoint find_pure (g : pystr) (l : list (pystr * bool)) : bool * list (pystr * bool) :=
  match l with
  | [] => (false, [])
  | (y, used) :: l' =>
    if negb used && v g y then (true, (y, true) :: l')
    else (fst (find_pure g l'), (y, used) :: snd (find_pure g l'))
  end.
Fixpoint greedy_pure (gts : list pystr) (l : list (pystr * bool)) : bool :=
  match gts with
  | [] => true
  | g :: gts' => fst (find_pure g l) && greedy_pure gts' (snd (find_pure g l))
  end.
Lemma find_pure_fst g l : map fst (snd (find_pure g l)) = map fst l.
Proof.
  induction l as [|[y used] l IH]; [reflexivity|]. cbn. destruct (_ && _); [reflexivity|]. cbn. f_equal. exact IH.
Qed.
Lemma find_match_pure g l :
  (forall y, In y (map fst l) -> pure_to (rec g y) (v g y)) ->
  pure_to (find_match W rec g l) (find_pure g l).
Proof.
  intro H. induction l as [|[y used] l IH]; [apply pure_ret|]. cbn.
  apply pure_bind with (a := negb used && v g y).
  { destruct used; cbn; [apply pure_ret|apply H; left; reflexivity]. }
  destruct (negb used && v g y); [apply pure_ret|].
  eapply pure_bind; [apply IH; intros; apply H; right; assumption|]. apply pure_ret.
Qed.
Lemma greedy_is_pure gts l :
  (forall x y, In x gts -> In y (map fst l) -> pure_to (rec x y) (v x y)) ->
  pure_to (greedy W rec gts l) (greedy_pure gts l).
Proof.
  revert l; induction gts as [|g gts IH]; intros l H; [apply pure_ret|]. cbn.
  eapply pure_bind; [apply find_match_pure; intros; apply H; [left; reflexivity|assumption]|].
  eapply pure_bind; [apply IH; rewrite find_pure_fst; intros; apply H; [right|]; assumption|].
  apply pure_ret.
Qed.
Lemma find_pure_spec g l :
  if fst (find_pure g l)
  then exists y, v g y = true /\ Permutation (unused l) (y :: unused (snd (find_pure g l)))
  else snd (find_pure g l) = l /\ forall y, In y (unused l) -> v g y = false.
Proof.
  induction l as [|[y used] l IH]; cbn; [split; [reflexivity|intros ? []]|].
  destruct (negb used && v g y) eqn:E; cbn.
  - apply andb_true_iff in E. destruct E as [U E]. destruct used; [discriminate|].
    exists y. split; [exact E|]. reflexivity.
  - destruct (fst (find_pure g l)) eqn:F.
    + destruct IH as (w & Hw & P). exists w. split; [exact Hw|].
      destruct used; cbn; [exact P|]. rewrite P. apply perm_swap.
    + destruct IH as (-> & Hn). split; [reflexivity|].
      destruct used; cbn; [exact Hn|]. cbn in E. intros z [<-|Hz]; auto.
Qed.
Lemma Forall2_perm_l {A B} (R : A -> B -> Prop) l1 l1' l2 :
  Permutation l1 l1' -> Forall2 R l1 l2 -> exists l2', Permutation l2 l2' /\ Forall2 R l1' l2'.
Proof.
  intros P. revert l2. induction P as [|x l l' P IH|x y l|l l' l'' P1 IH1 P2 IH2]; intros l2 F.
  - exists l2. auto.
  - inversion F as [|? b ? l3 Hb F3]; subst. destruct (IH _ F3) as (l4 & P4 & F4).
    exists (b :: l4). auto.
  - inversion F as [|? b ? l3 Hb F3]; subst. inversion F3 as [|? c ? l4 Hc F4]; subst.
    exists (c :: b :: l4). split; [apply perm_swap|auto].
  - destruct (IH1 _ F) as (l3 & P3 & F3). destruct (IH2 _ F3) as (l4 & P4 & F4).
    exists l4. split; [etransitivity; eauto|assumption].
Qed.

(** [v] transitive through two hops is all that is needed: a zig-zag x~y, z~y, z~w gives x~w. *)
Hypothesis zigzag : forall x y z w, v x y = true -> v z y = true -> v z w = true -> v x w = true.

Lemma greedy_pure_complete gts l :
  greedy_pure gts l = true <-> exists rest, matching (fun x y => v x y = true) gts (unused l) rest.
Proof.
  revert l; induction gts as [|g gts IH]; intro l; cbn.
  - split; [|reflexivity]. intros _. exists (unused l), []. split; [reflexivity|constructor].
  - pose proof (find_pure_spec g l) as Hs. destruct (find_pure g l) as [r l']. cbn [fst snd] in *. destruct r; cbn [andb].
    + destruct Hs as (y & Hy & P). rewrite IH. split.
      * intros (rest & m & Pm & F). exists rest, (y :: m). split; [|constructor; assumption].
        rewrite P, Pm. reflexivity.
      * intros (rest & m & Pm & F). inversion F as [|? y' ? m' Hy' F']; subst.
        (* y is either left over, matched to g, or matched to some later element *)
        rewrite P in Pm. cbn in Pm.
        destruct (str_eq_dec y y') as [->|D].
        { apply Permutation_cons_inv in Pm. exists rest, m'. auto. }
        assert (Hin : In y (m' ++ rest)).
        { assert (In y (y' :: m' ++ rest)) as [X|X]; [|congruence|exact X].
          eapply Permutation_in; [exact Pm|left; reflexivity]. }
        apply in_app_or in Hin. destruct Hin as [Hin|Hin].
        -- (* swap: the element matched to y takes y' *)
           apply in_split in Hin. destruct Hin as (m1 & m2 & ->).
           assert (exists m'', m'' = m1 ++ y' :: m2 /\ Forall2 (fun x y => v x y = true) gts m'') as (m'' & Em & Fm).
           { eexists; split; [reflexivity|]. apply Forall2_app_inv_r in F'. destruct F' as (g1 & g2 & F1 & F2 & ->).
             inversion F2 as [|x0 ? g2' ? Hx F2']; subst. apply Forall2_app; [exact F1|]. constructor; [|exact F2'].
             eapply zigzag; [exact Hx|exact Hy|exact Hy']. }
           exists rest, m''. split; [|exact Fm]. subst m''.
           apply Permutation_cons_inv with (a := y). rewrite Pm.
           rewrite <- !app_assoc. cbn. rewrite <- Permutation_middle. rewrite perm_swap.
           apply perm_skip. apply Permutation_middle.
        -- apply in_split in Hin. destruct Hin as (r1 & r2 & ->).
           exists (y' :: r1 ++ r2), m'. split; [|exact F'].
           apply Permutation_cons_inv with (a := y). rewrite Pm.
           rewrite app_assoc, <- Permutation_middle, perm_swap. apply perm_skip.
           rewrite <- Permutation_middle. rewrite app_assoc. reflexivity.
    + destruct Hs as (-> & Hn). split; [discriminate|].
      intros (rest & m & Pm & F). inversion F as [|? y' ? m' Hy' F']; subst.
      rewrite Hn in Hy'; [discriminate|]. eapply Permutation_in; [apply Permutation_sym; exact Pm|left; reflexivity].
Qed.
End Greedy.
