(** What an acceptance of is_equiv rests on. *)
From Coq Require Import String List NArith ZArith Bool Permutation Lia.
From Verif Require Import PyStr PyStrTheory SplitTheory Regex Normalize Monad MonadTheory Split Eval.
Import ListNotations.
Local Open Scope mon_scope.
Local Open Scope nat_scope.

Section Spec.
Variable W : World.
(** an oracle gives this answer, in some state *)
Definition answers {A} (m : M (St W) A) (a : A) : Prop := exists st st', m st = (Ret a, st').
(** the readings of an answer: its normal form, or one of its normal forms *)
Definition read_as (t r : pystr) : Prop := match string_normalize (int_str W) t with NStr s => r = s | NSet l => In r l end.
(** two collections of the same size, unless the second contains the membership command *)
Definition sizes (n m : nat) (l : list pystr) : Prop := n = m \/ In (u "\in") l.

Inductive justified : pystr -> pystr -> Prop :=
| JSame a b : strip a = strip b -> justified a b
| JNormal a b s : string_normalize (int_str W) a = NStr s -> string_normalize (int_str W) b = NStr s -> justified a b
| JReading a b r r' : read_as a r -> read_as b r' -> r' <> [] -> agreeing r r' -> justified a b
with agreeing : pystr -> pystr -> Prop :=
| GInterval r r' x y : (In 40%N r \/ In 41%N r \/ In 91%N r \/ In 93%N r) ->
    answers (interval_body W r) x -> answers (interval_body W r') y -> answers (interval_compare W x y) true -> agreeing r r'
| GSympy r r' : answers (equal_with_simplify W r r') true -> agreeing r r'
| GInner r r' s s' : split_tuple r None = Ret (SStr s) -> split_tuple r' None = Ret (SStr s') -> (s <> r \/ s' <> r') -> justified s s' -> agreeing r r'
| GSeq r r' k l l' : split_tuple r None = Ret (SSeq k l) -> split_tuple r' None = Ret (SSeq k l') -> k <> KSet -> sizes (length l) (length l') l' ->
    (forall a b, In (a, b) (combine l l') -> justified a b) -> agreeing r r'
| GSet r r' l l' g m rest : split_tuple r None = Ret (SSeq KSet l) -> split_tuple r' None = Ret (SSeq KSet l') ->
    sizes (length (nodup str_eq_dec l)) (length (nodup str_eq_dec l')) l' ->
    Permutation g (nodup str_eq_dec l) -> Permutation (m ++ rest) (nodup str_eq_dec l') -> length m = length g ->
    (forall a b, In (a, b) (combine g m) -> justified a b) -> agreeing r r'
| GMatInner r r' s s' : split_matrix r = Ret (MStr s) -> split_matrix r' = Ret (MStr s') -> (s <> r \/ s' <> r') -> justified s s' -> agreeing r r'
| GRows r r' l l' : split_matrix r = Ret (MRows l) -> split_matrix r' = Ret (MRows l') -> length l = length l' ->
    (forall c c', In (c, c') (combine l l') ->
      (exists a b, c = CStr a /\ c' = CStr b /\ justified a b) \/
      (exists p q, c = CRow p /\ c' = CRow q /\ length p = length q /\ forall a b, In (a, b) (combine p q) -> justified a b)) -> agreeing r r'.
End Spec.

Section Proof.
Variable W : World.
Notation St := (St W).
Lemma aw {A} (m : M St A) st a st' : m st = (Ret a, st') -> answers W m a.
Proof. intro H. exists st, st'. exact H. Qed.
Lemma tb_inv {A} (m h : M St A) st a st' : try_bare m h st = (Ret a, st') -> m st = (Ret a, st') \/ exists st1, h st1 = (Ret a, st').
Proof. unfold try_bare. destruct (m st) as [[b|e] st1]; intro H; [left; exact H|right; exists st1; exact H]. Qed.
Lemma te_inv {A} (m h : M St A) st a st' : try_except m h st = (Ret a, st') -> m st = (Ret a, st') \/ exists st1, h st1 = (Ret a, st').
Proof. unfold try_except. destruct (m st) as [[b|e] st1]; [intro H; left; exact H|]. destruct (is_Exception e); intro H; [right; exists st1; exact H|discriminate]. Qed.
Lemma rt_inv {A} (x a : A) (st st' : St) : ret x st = (Ret a, st') -> x = a.
Proof. intro H. injection H as H _. exact H. Qed.
Lemma lift_inv {A} (r : res A) a st st' : lift W r st = (Ret a, st') -> r = Ret a.
Proof. intro H. injection H as H _. exact H. Qed.
Ltac bi H a s H1 := apply bind_inv in H; destruct H as (a & s & H1 & H).

Lemma interval_inv gt gv p st st' : possible_intervals W gt gv st = (Ret p, st') -> fst p = true ->
  exists x y, answers W (interval_body W gt) x /\ answers W (interval_body W gv) y /\ answers W (interval_compare W x y) true.
Proof.
  unfold possible_intervals. intros H F. bi H a s1 H1. bi H b s2 H2.
  assert (K : forall t o q q', str_to_interval W t q = (Ret o, q') -> forall x, o = Some x -> answers W (interval_body W t) x).
  { intros t o q q' Hq x ->. apply tb_inv in Hq. destruct Hq as [Hq|[? Hq]]; [|discriminate Hq]. bi Hq v q1 Q1. apply rt_inv in Hq. injection Hq as ->. exact (aw _ _ _ _ Q1). }
  destruct a as [x|], b as [y|]; try (apply rt_inv in H; subst p; discriminate F).
  bi H c s3 H3. apply rt_inv in H. subst p. cbn in F. subst c. exists x, y.
  split; [exact (K _ _ _ _ H1 _ eq_refl)|]. split; [exact (K _ _ _ _ H2 _ eq_refl)|exact (aw _ _ _ _ H3)].
Qed.
Lemma bracket_in r : has_bracket r = true -> In 40%N r \/ In 41%N r \/ In 91%N r \/ In 93%N r.
Proof. unfold has_bracket. rewrite !orb_true_iff. intros [[[H|H]|H]|H]; apply contains_single in H; tauto. Qed.

Variable rec : pystr -> pystr -> M St bool.
Hypothesis R : forall a b st st', rec a b st = (Ret true, st') -> justified W a b.
Lemma zip_inv l l' st st' : all_zip W rec l l' st = (Ret true, st') -> forall a b, In (a, b) (combine l l') -> justified W a b.
Proof.
  revert l' st st'. induction l as [|x l IH]; intros [|y l'] st st' H a b Hi; try destruct Hi; cbn [all_zip] in H; bi H c s1 H1; (destruct c; [|discriminate H]).
  - injection H0 as <- <-. exact (R _ _ _ _ H1).
  - exact (IH _ _ _ H _ _ H0).
Qed.
Definition left_over (l : list (pystr * bool)) : list pystr := map fst (filter (fun p => negb (snd p)) l).
Lemma find_inv g l st r l' st' : find_match W rec g l st = (Ret (r, l'), st') ->
  if r then exists v, justified W g v /\ Permutation (left_over l) (v :: left_over l') else left_over l' = left_over l.
Proof.
  revert st r l' st'; induction l as [|[v used] l IH]; intros st r l' st' H; cbn [find_match] in H.
  - injection H as <- <- _. reflexivity.
  - bi H b st1 E. destruct b.
    + injection H as <- <- _. destruct used; [discriminate E|]. exists v. split; [exact (R _ _ _ _ E)|]. reflexivity.
    + bi H p st2 E2. destruct p as [r0 l0]. injection H as <- <- _. apply IH in E2. cbn [fst snd]. destruct r0.
      * destruct E2 as (w & A & P). exists w. split; [exact A|]. destruct used; cbn; [exact P|]. rewrite P. apply perm_swap.
      * destruct used; cbn; [exact E2|]. f_equal. exact E2.
Qed.
Lemma greedy_inv gts gvs st st' : greedy W rec gts gvs st = (Ret true, st') ->
  exists m rest, Permutation (m ++ rest) (left_over gvs) /\ length m = length gts /\ forall a b, In (a, b) (combine gts m) -> justified W a b.
Proof.
  revert gvs st st'; induction gts as [|g gts IH]; intros gvs st st' H; cbn [greedy] in H.
  - exists [], (left_over gvs). split; [reflexivity|]. split; [reflexivity|]. intros a b [].
  - bi H p st1 E. destruct p as [r l']. bi H b st2 E2. apply rt_inv in H. cbn in H. apply andb_true_iff in H. destruct H as [-> ->].
    apply find_inv in E. destruct E as (v & A & P). cbn [snd] in *. destruct (IH l' st1 st2 E2) as (m & rest & P' & L & F).
    exists (v :: m), rest. split; [cbn; rewrite P, P'; reflexivity|]. split; [cbn; rewrite L; reflexivity|]. intros a b [Q|Q]; [injection Q as <- <-; exact A|exact (F _ _ Q)].
Qed.
Lemma sizes_inv n m l : negb (Nat.eqb n m) && negb (existsb (str_eqb in_tok) l) = false -> sizes n m l.
Proof.
  intro H. unfold sizes. destruct (Nat.eqb n m) eqn:Q; [left; apply Nat.eqb_eq, Q|right]. cbn [negb andb] in H. apply negb_false_iff in H. apply existsb_exists in H.
  destruct H as (x & Hx & E). apply str_eqb_eq in E. subst x. exact Hx.
Qed.
Lemma kind_inv k k' : negb (kind_eqb k k') = false -> k = k'.
Proof. destruct k, k'; cbn; congruence. Qed.
Lemma left_over_fresh l : left_over (map (fun v => (v, false)) l) = l.
Proof. induction l as [|x l IH]; [reflexivity|]. unfold left_over in *. cbn. f_equal. exact IH. Qed.
Lemma set_size l : length (set_iter W l) = length (nodup str_eq_dec l).
Proof. apply Permutation_length, set_iter_ok. Qed.
Lemma both_same (a b c d : pystr) : str_eqb a b && str_eqb c d = false -> a <> b \/ c <> d.
Proof. intro H. apply andb_false_iff in H. destruct H as [H|H]; [left|right]; intros E; apply str_eqb_eq in E; congruence. Qed.
Lemma tuple_inv gt gv p st st' : possible_tuple W rec gt gv st = (Ret p, st') -> fst p = true -> agreeing W gt gv.
Proof.
  unfold possible_tuple. intros H F. bi H a s1 H1. apply lift_inv in H1. bi H b s2 H2. apply lift_inv in H2.
  destruct a as [s|k l], b as [s'|k' l'].
  - destruct (str_eqb s gt && str_eqb s' gv) eqn:Q; [apply rt_inv in H; subst p; discriminate F|]. bi H c s3 H3. apply rt_inv in H. subst p. cbn in F. subst c.
    apply (GInner W _ _ s s' H1 H2); [apply both_same; exact Q|exact (R _ _ _ _ H3)].
  - bi H c s3 H3. apply rt_inv in H. subst p. cbn in F. subst c. unfold compare_elems in H3. destruct (_ && _); discriminate H3.
  - bi H c s3 H3. apply rt_inv in H. subst p. cbn in F. subst c. unfold compare_elems in H3. destruct (_ && _); discriminate H3.
  - bi H c s3 H3. apply rt_inv in H. subst p. cbn in F. subst c. unfold compare_elems in H3. cbn [py_len has_in] in H3.
    destruct (negb _ && negb _) eqn:Q; [discriminate H3|]. apply sizes_inv in Q. destruct (negb (kind_eqb k k')) eqn:K; [discriminate H3|]. apply kind_inv in K. subst k'.
    destruct k; cbn [elems] in Q.
    + apply (GSeq W _ _ KList l l' H1 H2); [discriminate|exact Q|exact (zip_inv _ _ _ _ H3)].
    + apply (GSeq W _ _ KTuple l l' H1 H2); [discriminate|exact Q|exact (zip_inv _ _ _ _ H3)].
    + rewrite !set_size in Q. destruct (greedy_inv _ _ _ _ H3) as (m & rest & P & L & J). rewrite left_over_fresh in P.
      apply (GSet W _ _ l l' (set_iter W l) m rest H1 H2 Q); [apply set_iter_ok|rewrite P; apply set_iter_ok|exact L|exact J].
Qed.
Lemma rows_inv l l' st st' : all_rows W rec l l' st = (Ret true, st') -> forall c c', In (c, c') (combine l l') ->
  (exists a b, c = CStr a /\ c' = CStr b /\ justified W a b) \/
  (exists p q, c = CRow p /\ c' = CRow q /\ length p = length q /\ forall a b, In (a, b) (combine p q) -> justified W a b).
Proof.
  revert l' st st'. induction l as [|x l IH]; intros [|y l'] st st' H c c' Hi; [destruct Hi|destruct Hi|destruct Hi|]. cbn [all_rows] in H. destruct Hi as [Hi|Hi]; [injection Hi as <- <-|].
  - destruct x as [s|p], y as [s'|q]; try discriminate H.
    + bi H b s1 H1. destruct b; [|discriminate H]. left. exists s, s'. split; [reflexivity|split; [reflexivity|exact (R _ _ _ _ H1)]].
    + destruct (Nat.eqb _ _) eqn:L; [|discriminate H]. apply Nat.eqb_eq in L. cbn [negb] in H. bi H b s1 H1. destruct b; [|discriminate H]. right. exists p, q.
      split; [reflexivity|split; [reflexivity|split; [exact L|exact (zip_inv _ _ _ _ H1)]]].
  - assert (exists s, all_rows W rec l l' s = (Ret true, st')) as [s Hs]; [|exact (IH _ _ _ Hs _ _ Hi)].
    destruct x as [s|p], y as [s'|q]; try discriminate H.
    + bi H b s1 H1. destruct b; [exists s1; exact H|discriminate H].
    + destruct (Nat.eqb _ _) eqn:L; [|discriminate H]. cbn [negb] in H. bi H b s1 H1. destruct b; [exists s1; exact H|discriminate H].
Qed.
Lemma matrix_inv gt gv p st st' : possible_matrix W rec gt gv st = (Ret p, st') -> fst p = true -> agreeing W gt gv.
Proof.
  unfold possible_matrix. intros H F. bi H a s1 H1. apply lift_inv in H1. bi H b s2 H2. apply lift_inv in H2.
  destruct a as [s|l], b as [s'|l']; try (apply rt_inv in H; subst p; discriminate F).
  - destruct (str_eqb s gt && str_eqb s' gv) eqn:Q; [apply rt_inv in H; subst p; discriminate F|]. bi H c s3 H3. apply rt_inv in H. subst p. cbn in F. subst c.
    apply (GMatInner W _ _ s s' H1 H2); [apply both_same; exact Q|exact (R _ _ _ _ H3)].
  - destruct (Nat.eqb _ _) eqn:L; [|apply rt_inv in H; subst p; discriminate F]. apply Nat.eqb_eq in L. cbn [negb] in H. bi H c s3 H3. apply rt_inv in H. subst p. cbn in F. subst c.
    apply (GRows W _ _ l l' H1 H2 L). exact (rows_inv _ _ _ _ H3).
Qed.
Lemma latex_inv gt gv st st' : is_latex_equiv W rec gt gv st = (Ret true, st') -> gv <> [] /\ agreeing W gt gv.
Proof.
  unfold is_latex_equiv. intro H. assert (N : gv <> []) by (intros ->; discriminate H). split; [exact N|]. destruct gv as [|c gv]; [contradiction|].
  remember (c :: gv) as g eqn:Eg. clear Eg N. bi H p s1 H1. destruct (fst p) eqn:F1.
  { destruct (has_bracket gt) eqn:B; [|apply rt_inv in H1; subst p; discriminate F1]. destruct (interval_inv _ _ _ _ _ H1 F1) as (x & y & X & Y & C).
    exact (GInterval W _ _ x y (bracket_in _ B) X Y C). }
  bi H q s2 H2. destruct (fst q) eqn:F2; [exact (tuple_inv _ _ _ _ _ H2 F2)|]. cbn [negb andb] in H. bi H w s3 H3. destruct (fst w) eqn:F3.
  - destruct (str_is_mat gt || str_is_mat g); [exact (matrix_inv _ _ _ _ _ H3 F3)|]. apply rt_inv in H3. subst w. congruence.
  - cbn [negb andb] in H. destruct (snd w); cbn [negb] in H; [apply rt_inv in H; discriminate H|]. apply tb_inv in H. destruct H as [H|[? H]]; [|discriminate H].
    bi H b s4 H4. apply rt_inv in H. subst b. apply GSympy. exact (aw _ _ _ _ H4).
Qed.
Lemma given_inv (cmp : pystr -> pystr -> M St bool) g l st st' : any_given W cmp g l st = (Ret true, st') -> exists v s s', In v l /\ cmp g v s = (Ret true, s').
Proof.
  revert st. induction l as [|v l IH]; intros st H; [discriminate H|]. cbn [any_given] in H. bi H b s1 H1. destruct b.
  - exists v, st, s1. split; [left; reflexivity|exact H1].
  - destruct (IH _ H) as (x & s & s' & Hx & Hc). exists x, s, s'. split; [right; exact Hx|exact Hc].
Qed.
Lemma pair_inv (cmp : pystr -> pystr -> M St bool) l l' st st' : any_pair W cmp l l' st = (Ret true, st') -> exists g v s s', In g l /\ In v l' /\ cmp g v s = (Ret true, s').
Proof.
  revert st. induction l as [|g l IH]; intros st H; [discriminate H|]. cbn [any_pair] in H. bi H b s1 H1. destruct b.
  - destruct (given_inv _ _ _ _ _ H1) as (v & s & s' & Hv & Hc). exists g, v, s, s'. split; [left; reflexivity|split; assumption].
  - destruct (IH _ H) as (x & v & s & s' & Hx & Hv & Hc). exists x, v, s, s'. split; [right; exact Hx|split; assumption].
Qed.
Lemma readings_in t r : In r (readings W (string_normalize (int_str W) t)) -> read_as W t r.
Proof.
  unfold read_as, readings. destruct (string_normalize (int_str W) t) as [s|l]; [intros [<-|[]]; reflexivity|].
  intro H. apply (Permutation_in _ (set_iter_ok W l)) in H. apply nodup_In in H. exact H.
Qed.
Lemma norm_inv gt gv st st' : compare_norm W rec (string_normalize (int_str W) gt) (string_normalize (int_str W) gv) st = (Ret true, st') -> justified W gt gv.
Proof.
  intro H. apply te_inv in H. destruct H as [H|[? H]]; [|discriminate H].
  assert (K : exists g v s s', In g (readings W (string_normalize (int_str W) gt)) /\ In v (readings W (string_normalize (int_str W) gv)) /\ is_latex_equiv W rec g v s = (Ret true, s')).
  { destruct (string_normalize (int_str W) gt) as [s1|l1], (string_normalize (int_str W) gv) as [s2|l2]; try exact (pair_inv _ _ _ _ _ H).
    exists s1, s2, st, st'. split; [left; reflexivity|split; [left; reflexivity|exact H]]. }
  destruct K as (g & v & s & s' & Hg & Hv & Hc). apply latex_inv in Hc. destruct Hc as [N A].
  exact (JReading W gt gv g v (readings_in _ _ Hg) (readings_in _ _ Hv) N A).
Qed.
Lemma body_inv gt gv st st' : is_equiv_body W rec gt gv st = (Ret true, st') -> justified W gt gv.
Proof.
  unfold is_equiv_body. destruct (str_eqb (strip gt) (strip gv)) eqn:E; [intros _; apply JSame, str_eqb_eq, E|]. cbv zeta.
  destruct (string_normalize (int_str W) gt) as [s1|l1] eqn:N1, (string_normalize (int_str W) gv) as [s2|l2] eqn:N2; try (rewrite <- N1, <- N2; apply norm_inv).
  destruct (str_eqb s1 s2) eqn:E2; [|rewrite <- N1, <- N2; apply norm_inv]. apply str_eqb_eq in E2. subst s2. intros _. exact (JNormal W gt gv s1 N1 N2).
Qed.
End Proof.
Theorem equiv_justified W n gt gv st st' : is_equiv_str W n gt gv st = (Ret true, st') -> justified W gt gv.
Proof.
  revert gt gv st st'. induction n as [|n IH]; intros gt gv st st' H; [discriminate H|]. exact (body_inv W (is_equiv_str W n) IH gt gv st st' H).
Qed.
Theorem answers_justified W n gt gv st st' : is_equiv W n gt gv st = (Ret true, st') ->
  gt = None /\ gv = None \/ exists a b, gt = Some a /\ gv = Some b /\ justified W a b.
Proof.
  destruct gt as [a|], gv as [b|]; intro H; try discriminate H; [|left; split; reflexivity].
  right. exists a, b. split; [reflexivity|]. split; [reflexivity|exact (equiv_justified W n a b st st' H)].
Qed.
