(** Plain algebraic text is its own normal form, and the symbolic engine decides. *)
From Coq Require Import String List NArith ZArith Bool Lia Arith.
From Verif Require Import PyStr PyStrTheory Spec NumTheory Regex RegexTheory Normalize NormTheory NormNum NormPct Monad MonadTheory Split SplitTheory Eval EvalTheory EvalTheory2 Demo.
Import ListNotations.
Local Open Scope N_scope.

(** Letters of no unit name, connective or magnitude word; digits; operators and brackets. *)
Definition algebra : pystr := u "0123456789abchjknpqrstuvwxyz+-*/^=()[],.<>!|&'".
(** Characters of no numeral *)
Definition markers : pystr := u "bchjkpqrsuvwxz*/^=()[]<>!|&'".
Definition alg_cp (c : N) : bool := mem_cp algebra c.
Definition algebraic (s : pystr) : Prop := (forall c, In c s -> In c algebra) /\ exists c, In c s /\ In c markers.

Lemma alg_inert : inert alg_cp = true.
Proof. vm_compute. reflexivity. Qed.
Lemma mem_cp_spec l c : mem_cp l c = true <-> In c l.
Proof.
  unfold mem_cp. rewrite existsb_exists. split; [intros (x & Hx & E)|intro H]; [|exists c; split; [exact H|apply N.eqb_refl]].
  apply N.eqb_eq in E. subst. exact Hx.
Qed.
Lemma alg_forallb s : (forall c, In c s -> In c algebra) -> forallb alg_cp s = true.
Proof. intro H. apply forallb_forall. intros c Hc. apply mem_cp_spec, H, Hc. Qed.
Definition bad_b (b : N) : bool := (b <? 128) && negb (is_space b) && negb (is_ascii_digit b) && negb (mem_cp [43; 45; 46; 101; 69; 95] b) &&
  str_eqb (lower_cp b) [b] && negb (mem_cp (u "infinity") b) && negb (mem_cp (u "nan") b).
Lemma bad_b_spec b : bad_b b = true -> bad_cp b.
Proof.
  unfold bad_b, bad_cp. rewrite !andb_true_iff, !negb_true_iff. intros [[[[[[H1 H2] H3] H4] H5] H6] H7].
  assert (G : forall l, mem_cp l b = false -> ~ In b l) by (intros l Hl Hi; apply mem_cp_spec in Hi; congruence).
  repeat split; auto; [apply N.ltb_lt, H1|apply str_eqb_eq, H5].
Qed.
Lemma marker_bad c : In c markers -> bad_cp c /\ c <> 44.
Proof.
  intro H. split; [|intros ->; apply mem_cp_spec in H; vm_compute in H; discriminate].
  apply bad_b_spec. revert c H. apply forallb_forall. vm_compute. reflexivity.
Qed.
Lemma strip_commas_keeps c s : c <> 44 -> In c s -> In c (strip_commas s).
Proof.
  intro Hc. unfold strip_commas, re_sub_fun. apply (sub_go_ind thousands_re _ (fun _ s o => In c s -> In c o)).
  - auto.
  - intros _ x t o IH [->|H]; [left; reflexivity|right; auto].
  - intros _ w t o st _ _ _ _ _ IH H. apply in_app_or in H. apply in_or_app. destruct H as [H|H]; [left|right; auto].
    rewrite replace_single_del. apply filter_In. split; [exact H|]. apply negb_true_iff, N.eqb_neq, Hc.
Qed.
Lemma alg_no_int s : algebraic s -> norm_int s = s /\ str_is_int s = false.
Proof.
  intros (_ & c & Hc & Hm). apply marker_bad in Hm. destruct Hm as [Hb H44]. unfold norm_int, str_is_int.
  rewrite (bad_float c s Hb Hc), (bad_float c _ Hb (strip_commas_keeps c s H44 Hc)). split; reflexivity.
Qed.
Definition lower_b (c : N) : bool := str_eqb (lower_cp c) [c].
Lemma alg_lowers : forallb lower_b algebra = true.
Proof. vm_compute. reflexivity. Qed.
Lemma lower_b_spec c : lower_b c = true -> lower_cp c = [c].
Proof. unfold lower_b. intro H. apply (proj1 (str_eqb_eq _ _)). exact H. Qed.
Lemma alg_in c : alg_cp c = true -> In c algebra.
Proof. unfold alg_cp. intro H. apply mem_cp_spec. exact H. Qed.
Lemma alg_lower c : alg_cp c = true -> lower_cp c = [c].
Proof. intro H. apply lower_b_spec. exact (proj1 (forallb_forall lower_b algebra) alg_lowers c (alg_in c H)). Qed.
Lemma alg_no s c : algebraic s -> mem_cp algebra c = false -> ~ In c s.
Proof. intros [H _] Hc Hi. apply H, mem_cp_spec in Hi. congruence. Qed.
Lemma algebra_fixed ints s : algebraic s -> string_normalize ints s = NStr s.
Proof.
  intro H. pose proof (alg_forallb s (proj1 H)) as Ha.
  rewrite (inert_normalize alg_cp alg_inert s Ha).
  - f_equal. unfold further. rewrite (foreign_starts alg_cp [123] s ltac:(reflexivity) Ha). cbn [andb]. cbv zeta.
    destruct (alg_no_int s H) as [E1 E2]. rewrite E1. rewrite (alpha_contains alg_cp [bslash] s ltac:(reflexivity) Ha).
    rewrite minus_sub_id by (apply alg_no; [exact H|reflexivity]).
    unfold inject_mixed. rewrite (alpha_sub alg_cp mixed_re1), (alpha_sub alg_cp mixed_re2) by ((vm_compute; reflexivity) || exact Ha).
    rewrite (alpha_replace alg_cp [32] [] s ltac:(reflexivity) Ha), (lower_id alg_cp s alg_lower Ha), E2. reflexivity.
  - apply (alpha_contains alg_cp); [reflexivity|exact Ha].
  - apply strip_sp_id, alg_no; [exact H|reflexivity].
Qed.

(** ** Without brackets and commas *)
Definition atomic (s : pystr) : Prop := algebraic s /\ forall c, In c s -> ~ In c (u "()[],").
Lemma atomic_balance s : (forall c, In c s -> is_open c = false /\ is_close c = false) -> balance s = 0%Z.
Proof.
  induction s as [|c s IH]; intro H; [reflexivity|]. rewrite balance_cons, IH by (intros; apply H; right; assumption).
  destruct (H c (or_introl eq_refl)) as [H1 H2]. pose proof (step_balance 0 c) as E. unfold step in E. rewrite H1, H2 in E. lia.
Qed.
Lemma split_commas_none s : (forall c, In c s -> c <> 44) -> forall cnt stack, (length (split_commas s cnt stack) <= 1)%nat.
Proof.
  induction s as [|c s IH]; intros H cnt stack; cbn [split_commas]; [destruct stack; cbn; lia|].
  destruct (c =? 44) eqn:E; [exfalso; apply N.eqb_eq in E; revert E; apply H; left; reflexivity|]. cbn [andb]. apply IH. intros; apply H; right; assumption.
Qed.
Lemma strip_commas_none s : ~ In 44 s -> strip_commas s = s.
Proof.
  intro H. apply sub_id_den. intros w Hw _ Hd. apply H. apply (infix_in w s 44 Hw). apply needs_lit_sound with thousands_re; [reflexivity|exact Hd].
Qed.
Lemma split_atomic s : (forall c, In c s -> ~ In c (u "()[]{},")) -> split_tuple s None = Ret (SStr s).
Proof.
  intro H. assert (forall c, In c s -> is_open c = false /\ is_close c = false) as Hb.
  { intros c Hc. specialize (H c Hc). unfold is_open, is_close.
    assert (G : forall x, In x (u "()[]{},") -> (c =? x) = false) by (intros x Hx; apply N.eqb_neq; intros ->; contradiction).
    rewrite !G by (vm_compute; repeat (first [left; reflexivity|right])). split; reflexivity. }
  assert (H44 : forall c, In c s -> c <> 44) by (intros c Hc ->; apply (H 44 Hc); vm_compute; repeat (first [left; reflexivity|right])).
  unfold split_tuple. rewrite strip_commas_none by (intro Hi; exact (H44 44 Hi eq_refl)).
  destruct (scan s 0 true) as [cnt rm] eqn:Es. pose proof (scan_cnt s 0 true) as Ec. rewrite Es in Ec. cbn [fst] in Ec. rewrite (atomic_balance s Hb) in Ec.
  assert (cnt = 0)%Z as -> by lia. cbn [negb Z.eqb].
  assert (unwrap rm s = (s, KSet)) as ->.
  { unfold unwrap. destruct (rm && _) eqn:Er; [|reflexivity]. destruct s as [|c s]; [destruct rm; discriminate|]. cbn [first_cp hd].
    destruct (Hb c (or_introl eq_refl)) as [Ho _]. unfold is_open in Ho. apply orb_false_iff in Ho. destruct Ho as [Ho H3]. apply orb_false_iff in Ho. destruct Ho as [H1 H2].
    rewrite H1, H2, H3. reflexivity. }
  pose proof (split_commas_none s H44 0 []) as L. destruct (split_commas s 0 []) as [|x [|y l]]; cbn in L; [reflexivity|reflexivity|lia].
Qed.
Lemma no_has_bracket s : (forall c, In c s -> ~ In c (u "()[]")) -> has_bracket s = false.
Proof.
  intro H. unfold has_bracket.
  assert (G : forall x, In x (u "()[]") -> contains [x] s = false) by (intros x Hx; apply contains_single_not; intro Hi; exact (H x Hi Hx)).
  change (u "(") with [40]. change (u ")") with [41]. change (u "[") with [91]. change (u "]") with [93].
  rewrite !G by (vm_compute; repeat (first [left; reflexivity|right])). reflexivity.
Qed.
Lemma alg_not_mat s : algebraic s -> str_is_mat s = false.
Proof. intro H. apply (alpha_contains alg_cp); [reflexivity|exact (alg_forallb s (proj1 H))]. Qed.
Definition unspaced (c : N) : bool := negb (is_space c).
Lemma alg_unspaced : forallb unspaced algebra = true.
Proof. vm_compute. reflexivity. Qed.
Lemma alg_strip s : algebraic s -> strip s = s.
Proof.
  intros [H _]. assert (G : forall c, In c s -> is_space c = false).
  { intros c Hc. apply negb_true_iff. exact (proj1 (forallb_forall unspaced algebra) alg_unspaced c (H c Hc)). }
  unfold strip. destruct (strip_by_spec is_space s) as (w1 & w2 & E & P1 & P2). rewrite forallb_forall in P1, P2.
  assert (forall w, (forall c, In c w -> In c s) -> (forall c, In c w -> is_space c = true) -> w = []) as K.
  { intros [|c w] Hi Hw; [reflexivity|]. specialize (Hw c (or_introl eq_refl)). rewrite (G c (Hi c (or_introl eq_refl))) in Hw. discriminate. }
  rewrite (K w1), (K w2) in E; auto.
  - cbn [app] in E. rewrite app_nil_r in E. congruence.
  - intros c Hc. rewrite E. apply in_or_app. right. apply in_or_app. right. exact Hc.
  - intros c Hc. rewrite E. apply in_or_app. left. exact Hc.
Qed.
Lemma alg_nonnil s : algebraic s -> s <> [].
Proof. intros (_ & c & H & _) ->. exact H. Qed.
Lemma try_sympy W s1 s2 st : try_except (are_equal_under_sympy W s1 s2) (ret false) st = are_equal_under_sympy W s1 s2 st.
Proof.
  unfold try_except. pose proof (ro_sympy W (fun _ => False) s1 s2 st) as R. destruct (are_equal_under_sympy W s1 s2 st) as [[b|e] s]; [reflexivity|].
  exfalso. exact (R e eq_refl).
Qed.
Lemma atomic_decided W n s1 s2 st : atomic s1 -> atomic s2 -> s1 <> s2 ->
  is_equiv W (S n) (Some s1) (Some s2) st = are_equal_under_sympy W s1 s2 st.
Proof.
  intros [A1 B1] [A2 B2] Hne. cbn [is_equiv is_equiv_str]. unfold is_equiv_body.
  rewrite (alg_strip s1 A1), (alg_strip s2 A2), (algebra_fixed _ s1 A1), (algebra_fixed _ s2 A2).
  assert (str_eqb s1 s2 = false) as -> by (apply str_eqb_neq; exact Hne). unfold compare_norm.
  rewrite <- (try_sympy W s1 s2 st). unfold try_except.
  enough (is_latex_equiv W (is_equiv_str W n) s1 s2 st = are_equal_under_sympy W s1 s2 st) as -> by reflexivity.
  assert (S : forall s, algebraic s -> (forall c, In c s -> ~ In c (u "()[],")) -> split_tuple s None = Ret (SStr s)).
  { intros s A B. apply split_atomic. intros c Hc Hi. specialize (B c Hc).
    assert (123 = c \/ 125 = c \/ In c (u "()[],")) as [<-|[<-|K]]; [|apply A, mem_cp_spec in Hc; discriminate|apply A, mem_cp_spec in Hc; discriminate|contradiction].
    vm_compute in Hi |- *. tauto. }
  assert (Hb : has_bracket s1 = false).
  { apply no_has_bracket. intros c Hc Hi. apply (B1 c Hc). vm_compute in Hi |- *. tauto. }
  unfold is_latex_equiv. destruct s2 as [|c2 s2]; [exfalso; exact (alg_nonnil [] A2 eq_refl)|]. rewrite Hb.
  unfold possible_tuple. rewrite (S _ A1 B1), (S _ A2 B2), (alg_not_mat _ A1), (alg_not_mat _ A2).
  unfold bind, lift, ret. cbn [fst snd]. rewrite !str_eqb_refl. cbn [andb fst snd negb orb]. reflexivity.
Qed.
