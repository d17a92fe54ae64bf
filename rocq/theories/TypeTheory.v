(** Proofs about TypeEval.v. *)
From Coq Require Import String List NArith ZArith Bool Lia.
From Verif Require Import PyStr PyStrTheory Regex RegexTheory Normalize Monad MonadTheory Split SplitTheory Eval Spec EvalTheory TypeEval.
Import ListNotations.
Local Open Scope mon_scope.

(** ** Comparisons raise only what the element comparison raises *)
Section NoRaise.
Variable W : World.
Variable R : exn -> Prop.
Variable rec : pystr -> pystr -> M (St W) bool.
Hypothesis Hrec : forall x y, raises_only R (rec x y).
Lemma zip_ro l1 l2 : raises_only R (all_zip W rec l1 l2).
Proof.
  revert l2; induction l1 as [|x l1 IH]; intros [|y l2]; try apply ro_ret.
  cbn. apply ro_bind; [apply Hrec|intros []]; [apply IH|apply ro_ret].
Qed.
Lemma find_ro g l : raises_only R (find_match W rec g l).
Proof.
  induction l as [|[v []] l IH]; [apply ro_ret| |].
  all: cbn; apply ro_bind; [first [apply ro_ret|apply Hrec]|intros []]; try apply ro_ret.
  all: apply ro_bind; [apply IH|intro; apply ro_ret].
Qed.
Lemma greedy_ro l1 l2 : raises_only R (greedy W rec l1 l2).
Proof.
  revert l2; induction l1 as [|g l1 IH]; intro l2; [apply ro_ret|].
  cbn. apply ro_bind; [apply find_ro|intro r].
  apply ro_bind; [apply IH|intro; apply ro_ret].
Qed.
Lemma elems_ro a b : raises_only R (compare_elems W rec a b).
Proof.
  unfold compare_elems. destruct (_ && _); [apply ro_ret|].
  destruct a as [?|[] l1], b as [?|[] l2]; try apply ro_ret; cbn;
    first [apply zip_ro|apply greedy_ro].
Qed.
Lemma tuple_ro a b : balance a = 0%Z -> balance b = 0%Z -> raises_only R (possible_tuple W rec a b).
Proof.
  intros Ha Hb. unfold possible_tuple.
  assert (H : forall s, balance s = 0%Z -> raises_only R (lift W (split_tuple s None))).
  { intros s Hs st e. cbn. intro E. apply split_tuple_raises in E. destruct E; contradiction. }
  apply ro_bind; [apply H, Ha|intro x]. apply ro_bind; [apply H, Hb|intro y].
  destruct x, y; try (apply ro_bind; [apply elems_ro|intro; apply ro_ret]).
  destruct (_ && _); [apply ro_ret|]. apply ro_bind; [apply Hrec|intro; apply ro_ret].
Qed.
End NoRaise.

Definition returns_bool {St} (m : M St bool) : Prop := forall st, exists b, fst (m st) = Ret b.
Lemma ro_false {St A} (m : M St A) st : raises_only (fun _ => False) m -> exists a, fst (m st) = Ret a.
Proof. intro H. destruct (fst (m st)) as [a|e] eqn:E; [eauto|]. destruct (H st e E). Qed.

(** ** The preprocessing keeps brackets balanced *)
Lemma ends_with_snoc c s : ends_with [c] s = true -> exists t, s = t ++ [c].
Proof.
  unfold ends_with. intro H. apply starts_with_spec in H. destruct H as (t & H).
  exists (rev t). rewrite <- (rev_involutive s), H. reflexivity.
Qed.
Lemma wrapped_inv a b s : a <> b -> starts_with [a] s && ends_with [b] s = true -> s = a :: mid s ++ [b].
Proof.
  intros Hab H. apply andb_true_iff in H. destruct H as [H1 H2].
  apply starts_with_spec in H1. destruct H1 as (t & ->). apply ends_with_snoc in H2. destruct H2 as (t' & H2).
  cbn [app] in *. destruct t' as [|c t']; [injection H2 as H2 _; contradiction|].
  cbn in H2. injection H2 as <- ->. rewrite mid_cons. reflexivity.
Qed.
Lemma balance_wrapped k s m : s = fst (pair_of k) :: m ++ [snd (pair_of k)] -> balance m = balance s.
Proof. intros ->. rewrite balance_cons, balance_app. destruct (balance_pair k) as [-> ->]. lia. Qed.
Lemma round_or_square_inv s : round_or_square s = true ->
  exists k m, s = fst (pair_of k) :: m ++ [snd (pair_of k)] /\ mid s = m.
Proof.
  unfold round_or_square. intro H. apply orb_true_iff in H. destruct H as [H|H].
  - exists KTuple, (mid s). split; [|reflexivity]. apply (wrapped_inv 40%N 41%N); [discriminate|exact H].
  - exists KList, (mid s). split; [|reflexivity]. apply (wrapped_inv 91%N 93%N); [discriminate|exact H].
Qed.
Lemma set_preprocess_balance s : balance (set_preprocess s) = balance s.
Proof.
  unfold set_preprocess. destruct (round_or_square s) eqn:E; [|reflexivity].
  destruct (round_or_square_inv s E) as (k & m & Hs & ->). eapply balance_wrapped, Hs.
Qed.
Lemma balance_boxed m : balance (u "[" ++ m ++ u "]") = balance m.
Proof. rewrite !balance_app. change (balance (u "[")) with 1%Z. change (balance (u "]")) with (-1)%Z. lia. Qed.
Lemma vector_preprocess_balance s : balance (vector_preprocess s) = balance s.
Proof.
  unfold vector_preprocess. destruct (round_or_square s); [reflexivity|].
  destruct (starts_with (u "{") s && ends_with (u "}") s) eqn:E; rewrite balance_boxed; [|reflexivity].
  eapply (balance_wrapped KSet). apply (wrapped_inv 123%N 125%N); [discriminate|exact E].
Qed.

Section TypeTheory.
Variable W : World.
Variable n : nat.
Definition interval_ok := forall x y st e, fst (interval_compare W x y st) = Raise e -> is_Exception e = true.

Lemma is_equiv_str_never_raises : interval_ok -> forall x y, raises_only (fun _ => False) (is_equiv_str W (S n) x y).
Proof.
  intros H x y st e E. destruct (is_equiv_total W n (Some x) (Some y) st H) as (b & Hb).
  change (is_equiv W (S n) (Some x) (Some y) st) with (is_equiv_str W (S n) x y st) in Hb. congruence.
Qed.

Lemma tuple_check_accepts pre gt gv a b st : interval_ok ->
  (forall s, balance (pre s) = balance s) ->
  string_normalize (int_str W) gt = NStr a -> string_normalize (int_str W) gv = NStr b ->
  balance a = 0%Z -> balance b = 0%Z ->
  exists p st', tuple_check W (S n) pre gt gv st = (Ret (CPair p), st').
Proof.
  intros HI Hp Ha Hb Ba Bb. unfold tuple_check, normalize. rewrite Ha, Hb. unfold bind at 1 2, str_method, ret at 1 2.
  destruct (ro_false (possible_tuple W (is_equiv_str W (S n)) (pre a) (pre b)) st) as (p & E).
  { apply tuple_ro; [apply is_equiv_str_never_raises, HI|rewrite Hp; exact Ba|rewrite Hp; exact Bb]. }
  unfold try_bare, bind. destruct (possible_tuple _ _ _ _ st) as [r st1]. cbn in E. subst r.
  exists p, st1. reflexivity.
Qed.

(** C43 *)
Lemma set_vector_accepts gt gv h a b st : interval_ok ->
  contains (u "Complex") h = false -> contains (u "Set") h || contains (u "Vector") h = true ->
  string_normalize (int_str W) gt = NStr a -> string_normalize (int_str W) gv = NStr b ->
  balance a = 0%Z -> balance b = 0%Z ->
  fst (is_equiv_type W (S n) gt gv (Some h) st) = Ret true.
Proof.
  intros HI HC HSV Ha Hb Ba Bb. unfold is_equiv_type, checks. cbn [run_checks]. rewrite HC.
  destruct (contains (u "Set") h).
  - destruct (tuple_check_accepts set_preprocess gt gv a b st HI set_preprocess_balance Ha Hb Ba Bb) as (p & st' & E).
    unfold is_equiv_set, bind. rewrite E. reflexivity.
  - rewrite orb_false_l in HSV. rewrite HSV.
    destruct (tuple_check_accepts vector_preprocess gt gv a b st HI vector_preprocess_balance Ha Hb Ba Bb) as (p & st' & E).
    unfold is_equiv_vector, bind. rewrite E. reflexivity.
Qed.

(** C42 *)
Lemma no_hint gt gv h st :
  (forall name, In name [u "Complex"; u "Set"; u "Vector"; u "Function"] -> contains name h = false) ->
  is_equiv_type W n gt gv (Some h) st = is_equiv W n (Some gt) (Some gv) st.
Proof.
  intro H. unfold is_equiv_type, checks. cbn [run_checks].
  rewrite (H (u "Complex")), (H (u "Set")), (H (u "Vector")), (H (u "Function")) by (cbn; auto 6). reflexivity.
Qed.
Lemma hint_accepts gt gv h st b :
  (forall st', fst (is_equiv W n (Some gt) (Some gv) st') = Ret true) ->
  fst (is_equiv_type W n gt gv h st) = Ret b -> b = true.
Proof.
  intros H E. destruct h as [h|]; [|discriminate]. unfold is_equiv_type in E. apply bind_inv_fst in E.
  destruct E as ([] & st1 & _ & E); [injection E as <-; reflexivity|]. specialize (H st1). cbn in H. congruence.
Qed.
Lemma hint_rejects gt gv h st :
  fst (is_equiv_type W n gt gv (Some h) st) = Ret false -> exists st', fst (is_equiv W n (Some gt) (Some gv) st') = Ret false.
Proof.
  intros E. unfold is_equiv_type in E. apply bind_inv_fst in E. destruct E as ([] & st1 & _ & E); [discriminate|].
  exists st1. exact E.
Qed.

(** C44 *)
Lemma set_norm_attribute_error gt gv h st :
  contains (u "Complex") h = false -> contains (u "Set") h || contains (u "Vector") h = true ->
  is_set_norm (string_normalize (int_str W) gt) \/ is_set_norm (string_normalize (int_str W) gv) ->
  is_equiv_type W n gt gv (Some h) st = (Raise AttributeError, st).
Proof.
  intros HC HSV Hset. assert (E : forall pre, tuple_check W n pre gt gv st = (Raise AttributeError, st)).
  { intro pre. unfold tuple_check, normalize, bind, str_method, ret, raise. 
    destruct (string_normalize (int_str W) gt); [|reflexivity].
    destruct (string_normalize (int_str W) gv); [|reflexivity]. destruct Hset as [[]|[]]. }
  unfold is_equiv_type, checks. cbn [run_checks]. rewrite HC. destruct (contains (u "Set") h).
  - unfold is_equiv_set, bind. rewrite E. reflexivity.
  - rewrite orb_false_l in HSV. rewrite HSV. unfold is_equiv_vector, bind. rewrite E. reflexivity.
Qed.
Lemma complex_attribute_error gt gv h st :
  contains (u "Complex") h = true ->
  is_set_norm (string_normalize (int_str W) (str_to_complex gt)) \/ is_set_norm (string_normalize (int_str W) (str_to_complex gv)) ->
  is_equiv_type W n gt gv (Some h) st = (Raise AttributeError, st).
Proof.
  intros HC Hset. unfold is_equiv_type, checks. cbn [run_checks]. rewrite HC.
  unfold is_equiv_complex, normalize, bind, str_method, ret, raise.
  destruct (string_normalize (int_str W) (str_to_complex gt)); [|reflexivity].
  destruct (string_normalize (int_str W) (str_to_complex gv)); [|reflexivity]. destruct Hset as [[]|[]].
Qed.
End TypeTheory.

Section Total.
Variable W : World.
Variable n : nat.
Hypothesis HI : interval_ok W.
Definition str_norm (v : norm) : Prop := exists s, v = NStr s.

Lemma run_checks_total h gt gv l :
  Forall (fun c => contains (fst c) h = true -> raises_only (fun _ => False) (snd c gt gv)) l ->
  raises_only (fun _ => False) (run_checks W l h gt gv).
Proof.
  induction 1 as [|[name f] l Hf F IH]; cbn [run_checks]; [apply ro_ret|]. cbn [fst snd] in Hf.
  destruct (contains name h); [|exact IH]. apply ro_bind; [apply Hf; reflexivity|intro c].
  destruct (truthy c); [apply ro_ret|exact IH].
Qed.
Lemma tuple_check_total m pre gt gv : str_norm (string_normalize (int_str W) gt) -> str_norm (string_normalize (int_str W) gv) ->
  raises_only (fun _ => False) (tuple_check W m pre gt gv).
Proof.
  intros (a & Ha) (b & Hb). unfold tuple_check, normalize. rewrite Ha, Hb.
  apply ro_bind; [apply ro_ret|intro]. apply ro_bind; [apply ro_ret|intro]. apply ro_try_bare, ro_ret.
Qed.
Lemma parse_function_total v : str_norm v -> raises_only (fun _ => False) (try_to_parse_function W v).
Proof.
  intros (s & ->). unfold try_to_parse_function. apply ro_bind; [apply ro_ret|intro r].
  destruct (snd r) as [[|k]|]; try apply ro_ret. apply ro_try_bare, ro_ret.
Qed.
Lemma is_equiv_type_total gt gv h st :
  str_norm (string_normalize (int_str W) gt) -> str_norm (string_normalize (int_str W) gv) ->
  (contains (u "Complex") h = true ->
     str_norm (string_normalize (int_str W) (str_to_complex gt)) /\ str_norm (string_normalize (int_str W) (str_to_complex gv))) ->
  exists b, fst (is_equiv_type W (S n) gt gv (Some h) st) = Ret b.
Proof.
  intros Ha Hb Hc. apply ro_false. unfold is_equiv_type.
  apply ro_bind; [|intros []; [apply ro_ret|apply is_equiv_str_never_raises, HI]].
  apply run_checks_total. unfold checks.
  apply Forall_cons; [|apply Forall_cons; [|apply Forall_cons; [|apply Forall_cons; [|constructor]]]]; cbn [fst snd]; intro HN.
  - apply ro_bind; [|intro; apply ro_ret]. destruct (Hc HN) as [(a & Ha') (b & Hb')].
    unfold is_equiv_complex, normalize. rewrite Ha', Hb'.
    apply ro_bind; [apply ro_ret|intro]. apply ro_bind; [apply ro_ret|intro]. apply ro_try_bare, ro_ret.
  - apply tuple_check_total; assumption.
  - apply tuple_check_total; assumption.
  - apply ro_bind; [|intro; apply ro_ret]. unfold is_equiv_function.
    apply ro_bind; [apply is_equiv_str_never_raises, HI|intros []; [apply ro_ret|]].
    apply ro_bind; [apply parse_function_total, Ha|intro]. apply ro_bind; [apply parse_function_total, Hb|intro].
    apply is_equiv_str_never_raises, HI.
Qed.
End Total.

(** ** Function hints *)
(** The part compared: what follows the first [=], provided something precedes it and
    the left-hand side parses; the whole text otherwise. *)
Inductive function_body (parses : pystr -> bool) : pystr -> pystr -> Prop :=
| FB_rhs lhs rhs : lhs <> [] -> ~ In 61%N lhs -> parses lhs = true -> function_body parses (lhs ++ 61%N :: rhs) rhs
| FB_bad lhs rhs : lhs <> [] -> ~ In 61%N lhs -> parses lhs = false -> function_body parses (lhs ++ 61%N :: rhs) (lhs ++ 61%N :: rhs)
| FB_first rhs : function_body parses (61%N :: rhs) (61%N :: rhs)
| FB_none s : ~ In 61%N s -> function_body parses s s.

Lemma find_eq_cons c s : find_str (u "=") (c :: s) = if (61 =? c)%N then Some O else option_map S (find_str (u "=") s).
Proof. change (u "=") with [61%N]. cbn [find_str starts_with]. rewrite andb_true_r. reflexivity. Qed.
Lemma find_eq_none s : find_str (u "=") s = None <-> ~ In 61%N s.
Proof.
  induction s as [|c s IH]; [cbn; intuition|]. rewrite find_eq_cons.
  destruct (N.eqb_spec 61 c) as [<-|Hc].
  - split; [discriminate|]. intro H; exfalso; apply H; left; reflexivity.
  - destruct (find_str (u "=") s) as [k|] eqn:E; cbn [option_map].
    + split; [discriminate|]. intro H. exfalso. assert (H' : ~ In 61%N s) by (intro; apply H; right; assumption). apply IH in H'. discriminate.
    + split; [|reflexivity]. intros _ [H|H]; [congruence|]. apply (proj1 IH eq_refl), H.
Qed.
Lemma find_eq_some s k : find_str (u "=") s = Some k -> exists lhs rhs, s = lhs ++ 61%N :: rhs /\ length lhs = k /\ ~ In 61%N lhs.
Proof.
  revert k; induction s as [|c s IH]; intros k; [discriminate|]. rewrite find_eq_cons.
  destruct (N.eqb_spec 61 c) as [<-|Hc].
  - intros [= <-]. exists [], s. auto.
  - destruct (find_str (u "=") s) as [j|] eqn:E; [|discriminate]. intros [= <-].
    destruct (IH j eq_refl) as (lhs & rhs & -> & <- & H). exists (c :: lhs), rhs. split; [reflexivity|]. split; [reflexivity|].
    intros [H'|H']; [congruence|contradiction].
Qed.
Section Function.
Variable W : World.
Variable n : nat.
Variable parses : pystr -> bool.
Hypothesis Hparse : forall x st, (exists a, fst (parse_lhs W x st) = Ret a) <-> parses x = true.

Lemma parse_function_pure s r : function_body parses s r -> pure_to (try_to_parse_function W (NStr s)) r.
Proof.
  intros H st. unfold try_to_parse_function. unfold bind at 1, str_method, ret at 1. cbn [fst snd].
  destruct (find_str (u "=") s) as [k|] eqn:E.
  - apply find_eq_some in E. destruct E as (lhs & rhs & Es & Hk & Hn).
    assert (Huniq : forall l2 r2, s = l2 ++ 61%N :: r2 -> ~ In 61%N l2 -> l2 = lhs /\ r2 = rhs).
    { intros l2 r2 E2 Hn2. rewrite Es in E2. clear - E2 Hn Hn2. revert l2 E2 Hn2; induction lhs as [|c lhs IH]; intros l2 E2 Hn2.
      - destruct l2 as [|d l2]; [injection E2 as ->; auto|]. injection E2 as <- _. exfalso; apply Hn2; left; reflexivity.
      - destruct l2 as [|d l2]; [injection E2 as -> _; exfalso; apply Hn; left; reflexivity|]. injection E2 as <- E2.
        destruct (IH (fun h => Hn (or_intror h)) l2 E2 (fun h => Hn2 (or_intror h))) as [-> ->]. auto. }
    destruct k as [|k].
    + destruct lhs; [|discriminate]. cbn in Es. subst s.
      inversion H as [l2 r2 Hl Hn2 Hp E1 E2|l2 r2 Hl Hn2 Hp E1 E2| |s' Hs E1 E2]; subst; try reflexivity.
      destruct (Huniq _ _ (eq_sym E1) Hn2) as [-> _]. contradiction.
    + destruct lhs as [|c lhs]; [discriminate|]. set (L := c :: lhs) in *.
      assert (HL : L <> []) by discriminate. clearbody L. subst s. rewrite <- Hk.
      replace (firstn (length L) (L ++ 61%N :: rhs)) with L by (rewrite firstn_app, Nat.sub_diag, firstn_all, app_nil_r; reflexivity).
      replace (skipn (S (length L)) (L ++ 61%N :: rhs)) with rhs.
      2:{ rewrite skipn_app, skipn_all2 by lia. rewrite Nat.sub_succ_l, Nat.sub_diag by lia. reflexivity. }
      assert (Hcase : parses L = true /\ r = rhs \/ parses L = false /\ r = L ++ 61%N :: rhs).
      { inversion H as [l2 r2 Hl Hn2 Hp E1 E2|l2 r2 Hl Hn2 Hp E1 E2|r2 E1 E2|s' Hs E1 E2]; subst.
        - destruct (Huniq _ _ (eq_sym E1) Hn2) as [-> ->]. auto.
        - destruct (Huniq _ _ (eq_sym E1) Hn2) as [-> ->]. auto.
        - destruct L as [|d L]; [contradiction|]. injection E1 as <- _. exfalso; apply Hn; left; reflexivity.
        - exfalso. apply Hs. apply in_or_app; right; left; reflexivity. }
      specialize (Hparse L st). unfold try_bare, bind. destruct (parse_lhs W L st) as [[a|e] st1]; cbn in *.
      * assert (parses L = true) by (apply Hparse; eauto). destruct Hcase as [[_ ->]|[HF _]]; [reflexivity|congruence].
      * destruct Hcase as [[HF ->]|[_ ->]]; [|reflexivity]. apply Hparse in HF. destruct HF as (a & HF). discriminate.
  - apply find_eq_none in E.
    inversion H; subst; try reflexivity; exfalso; apply E; try (apply in_or_app; right); left; reflexivity.
Qed.

Lemma function_hint gt gv a b ra rb h v1 v2 st :
  contains (u "Complex") h = false -> contains (u "Set") h = false -> contains (u "Vector") h = false ->
  contains (u "Function") h = true ->
  string_normalize (int_str W) gt = NStr a -> string_normalize (int_str W) gv = NStr b ->
  function_body parses a ra -> function_body parses b rb ->
  (forall st', fst (is_equiv W n (Some gt) (Some gv) st') = Ret v1) ->
  (forall st', fst (is_equiv W n (Some ra) (Some rb) st') = Ret v2) ->
  fst (is_equiv_type W n gt gv (Some h) st) = Ret (v1 || v2).
Proof.
  intros H1 H2 H3 H4 Ha Hb Hra Hrb Hv1 Hv2. unfold is_equiv_type, checks. cbn [run_checks]. rewrite H1, H2, H3, H4.
  assert (HF : pure_to (is_equiv_function W n gt gv) (v1 || v2)).
  { unfold is_equiv_function. eapply pure_bind; [exact Hv1|]. destruct v1; [apply pure_ret|].
    unfold normalize. rewrite Ha, Hb.
    eapply pure_bind; [apply parse_function_pure, Hra|]. eapply pure_bind; [apply parse_function_pure, Hrb|]. exact Hv2. }
  assert (HR : pure_to (c <- (r <- is_equiv_function W n gt gv ;; ret (CBool r)) ;; if truthy c then ret true else ret false) (v1 || v2)).
  { eapply pure_bind; [eapply pure_bind; [exact HF|apply pure_ret]|]. cbn [truthy]. destruct (_ || _); apply pure_ret. }
  revert st. apply (pure_bind _ _ _ _ HR). destruct v1; [apply pure_ret|].
  destruct v2; [apply pure_ret|]. exact Hv1.
Qed.
End Function.
