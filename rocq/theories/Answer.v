(** Two answers of written arithmetic are decided by the symbolic engine. *)
From Coq Require Import String List NArith ZArith Bool Lia Arith Permutation.
From Verif Require Import PyStr PyStrTheory NumTheory Regex RegexTheory Normalize NormTheory Monad MonadTheory Split SplitTheory Eval EvalTheory EvalTheory2 NormAlg
  Interval IntervalEval Arith ArithLex Automaton LatexForm.
Import ListNotations.
Local Open Scope N_scope.

(** ** Brackets *)
Section Gap.
Variable gap : pystr.
Hypothesis Hgap : gap = [] \/ gap = [32].
Notation body := (body gap).
Notation level := (level gap).
Lemma numeral_balance ds : numeral ds -> balance ds = 0%Z.
Proof.
  intros [F _]. apply atomic_balance. rewrite Forall_forall in F. intros c Hc. specialize (F c Hc). unfold ascii_digit in F. unfold is_open, is_close.
  repeat match goal with |- context [c =? ?n] => destruct (N.eqb_spec c n); [lia|] end. split; reflexivity.
Qed.
Lemma sym_balance x : In x symbols -> balance x = 0%Z.
Proof. assert (T : forallb (fun x => (balance x =? 0)%Z) symbols = true) by (vm_compute; reflexivity). rewrite forallb_forall in T. intro H. apply Z.eqb_eq, T, H. Qed.
Lemma fn_balance x : In x functions -> balance x = 0%Z.
Proof. assert (T : forallb (fun x => (balance x =? 0)%Z) functions = true) by (vm_compute; reflexivity). rewrite forallb_forall in T. intro H. apply Z.eqb_eq, T, H. Qed.
Lemma gap_balance : balance gap = 0%Z.
Proof. destruct Hgap as [-> | ->]; reflexivity. Qed.
Lemma level_balance l e : balance (body e) = 0%Z -> balance (level l e) = 0%Z.
Proof. intro H. unfold LatexForm.level. destruct (Nat.leb _ _); [exact H|]. unfold parens. rewrite !balance_app, H. reflexivity. Qed.
Ltac bal := rewrite ?balance_app, ?gap_balance.
Lemma body_balance e : wf e -> balance (body e) = 0%Z.
Proof.
  induction e; intro W; cbn [wf] in W.
  - apply numeral_balance, W.
  - cbn [Arith.body]. bal. rewrite (numeral_balance ds), (numeral_balance fs) by apply W. reflexivity.
  - cbn [Arith.body]. bal. rewrite numeral_balance by apply W. reflexivity.
  - apply sym_balance, W.
  - reflexivity.
  - change (balance (level (op_prec o) e1 ++ op_latex gap o ++ level (S (op_prec o)) e2) = 0%Z). bal.
    rewrite !level_balance by (apply IHe1, W || apply IHe2, W). destruct o; cbn [op_latex]; bal; reflexivity.
  - change (balance (u "-" ++ level 3 e) = 0%Z). bal. rewrite level_balance by (apply IHe, W). reflexivity.
  - change (balance (ds ++ (if digit_first (level 4 e) then parens (body e) else level 4 e)) = 0%Z). bal. rewrite numeral_balance by apply W.
    destruct (digit_first (level 4 e)); [|rewrite level_balance by (apply IHe, W); reflexivity]. unfold parens. bal. rewrite IHe by apply W. reflexivity.
  - change (balance (level 4 e ++ u "!") = 0%Z). bal. rewrite level_balance by (apply IHe, W). reflexivity.
  - change (balance (level 6 e1 ++ u "^{" ++ body e2 ++ u "}") = 0%Z). bal. rewrite level_balance, IHe2 by (apply IHe1, W || apply W). reflexivity.
  - cbn [Arith.body]. bal. rewrite IHe by apply W. reflexivity.
  - cbn [Arith.body]. bal. rewrite IHe1, IHe2 by apply W. reflexivity.
  - cbn [Arith.body]. bal. rewrite IHe1, IHe2 by apply W. reflexivity.
  - cbn [Arith.body]. bal. rewrite IHe by apply W. reflexivity.
  - cbn [Arith.body]. bal. rewrite IHe1, IHe2 by apply W. reflexivity.
  - cbn [Arith.body]. bal. rewrite IHe by apply W. reflexivity.
  - cbn [Arith.body]. bal. rewrite IHe by apply W. reflexivity.
  - cbn [Arith.body]. bal. rewrite IHe by apply W. reflexivity.
  - cbn [Arith.body]. bal. rewrite IHe, (fn_balance f) by apply W. reflexivity.
  - cbn [Arith.body]. unfold parens. bal. rewrite IHe by apply W. reflexivity.
  - rewrite body_juxt. bal.
    assert (P : forall e, balance (body e) = 0%Z -> balance (parens (body e)) = 0%Z) by (intros e H; unfold parens; bal; rewrite H; reflexivity).
    assert (R : balance (right_level gap e2) = 0%Z) by (unfold right_level; destruct (digit_first _); [apply P, IHe2, W|apply level_balance, IHe2, W]).
    rewrite R. destruct (_ || _ || _); [rewrite P by (apply IHe1, W)|rewrite level_balance by (apply IHe1, W)]; reflexivity.
Qed.
Lemma scan_false s : forall cnt, snd (scan s cnt false) = false.
Proof. induction s as [|c s IH]; intro cnt; cbn [scan]; [reflexivity|]. destruct (_ && _); apply IH. Qed.
Lemma scan_split p q : p <> [] -> q <> [] -> forall cnt rm, (cnt + balance p = 0)%Z -> snd (scan (p ++ q) cnt rm) = false.
Proof.
  intros Hp Hq. induction p as [|c p IH]; intros cnt rm E; [congruence|]. cbn [app scan]. rewrite balance_cons in E.
  destruct p as [|d p].
  - cbn [app]. rewrite step_balance. change (balance []) with 0%Z in E. replace (cnt + balance [c])%Z with 0%Z by lia.
    destruct q as [|x q]; [congruence|]. cbn [length Nat.eqb negb andb Z.eqb]. apply scan_false.
  - apply IH; [discriminate|]. rewrite step_balance. lia.
Qed.
Lemma numeral_first ds : numeral ds -> exists c r, ds = c :: r /\ c <> 40 /\ c <> 91 /\ c <> 123.
Proof. intros [F N]. destruct ds as [|c r]; [congruence|]. inversion F as [|? ? H _]; subst. unfold ascii_digit in H. exists c, r. split; [reflexivity|lia]. Qed.
Definition unwrapped (s : pystr) : Prop :=
  (exists c r, s = c :: r /\ c <> 40 /\ c <> 91 /\ c <> 123) \/ (exists p q, s = p ++ q /\ p <> [] /\ q <> [] /\ balance p = 0%Z).
Lemma lvl_nonnil l e : wf e -> level l e <> [].
Proof. intro W. destruct (level_first gap l e W) as (c & r & -> & _). discriminate. Qed.
Lemma body_unwrapped e : wf e -> printable e -> unwrapped (body e).
Proof.
  assert (BS : forall s, unwrapped (92 :: s)) by (intro s; left; exists 92, s; split; [reflexivity|lia]).
  assert (NF : forall ds s, numeral ds -> unwrapped (ds ++ s)).
  { intros ds s H. left. destruct (numeral_first ds H) as (c & r & -> & X). exists c, (r ++ s). split; [reflexivity|exact X]. }
  intros W P. destruct e; cbn [wf] in W; try apply BS; try contradiction P.
  - cbn [Arith.body]. rewrite <- (app_nil_r ds). apply NF, W.
  - apply NF, W.
  - cbn [Arith.body]. left. assert (T : forallb (fun x => match x with c :: _ => negb (mem_cp [40; 91; 123] c) | [] => false end) symbols = true) by (vm_compute; reflexivity).
    rewrite forallb_forall in T. specialize (T x W). destruct x as [|c r]; [discriminate|]. exists c, r. split; [reflexivity|].
    apply negb_true_iff in T. cbn in T. repeat (apply orb_false_iff in T; destruct T as [? T]). rewrite !N.eqb_neq in *. lia.
  - change (unwrapped (level (op_prec o) e1 ++ op_latex gap o ++ level (S (op_prec o)) e2)). right. eexists. eexists. split; [reflexivity|].
    split; [apply lvl_nonnil, W|]. split; [destruct o; discriminate|]. apply level_balance, body_balance, W.
  - left. change (exists c r, 45 :: level 3 e = c :: r /\ c <> 40 /\ c <> 91 /\ c <> 123). exists 45, (level 3 e). split; [reflexivity|lia].
  - apply NF, W.
  - change (unwrapped (level 4 e ++ u "!")). right. eexists. eexists. split; [reflexivity|].
    split; [apply lvl_nonnil, W|]. split; [discriminate|]. apply level_balance, body_balance, W.
  - change (unwrapped (level 6 e1 ++ u "^{" ++ body e2 ++ u "}")). right. eexists. eexists. split; [reflexivity|].
    split; [apply lvl_nonnil, W|]. split; [discriminate|]. apply level_balance, body_balance, W.
  - left. exists 101, (u "^{" ++ body e ++ u "}"). split; [reflexivity|lia].
Qed.
Lemma split_plain s : ~ In 44 s -> balance s = 0%Z -> unwrapped s -> split_tuple s None = Ret (SStr s).
Proof.
  intros H44 B U. unfold split_tuple. rewrite strip_commas_none by exact H44.
  destruct (scan s 0 true) as [cnt rm] eqn:Es. pose proof (scan_cnt s 0 true) as Ec. rewrite Es in Ec. cbn [fst] in Ec. rewrite B in Ec.
  assert (cnt = 0)%Z as -> by lia. cbn [negb Z.eqb].
  assert (unwrap rm s = (s, KSet)) as ->.
  { unfold unwrap. destruct U as [(c & r & -> & N1 & N2 & N3)|(p & q & -> & Np & Nq & Bp)].
    - cbn [first_cp hd]. apply N.eqb_neq in N1, N2, N3. rewrite N1, N2, N3. cbn [andb]. destruct (rm && _); reflexivity.
    - pose proof (scan_split p q Np Nq 0 true ltac:(lia)) as X. rewrite Es in X. cbn [snd] in X. subst rm. reflexivity. }
  assert (L : forall c, In c s -> c <> 44) by (intros c Hc ->; contradiction).
  pose proof (split_commas_none s L 0 []) as L'. destruct (split_commas s 0 []) as [|x [|y l]]; cbn in L'; [reflexivity|reflexivity|lia].
Qed.
End Gap.

(** ** No interval without a comma *)
Section I.
Context {St V S : Type}.
Variable IS : ISympy St V S.
Lemma split_go_first sep : forall s k cur, ~ In 44 s -> ~ In 44 cur -> exists t l, split_go sep k s cur = t :: l /\ ~ In 44 t.
Proof.
  induction s as [|c s IH]; intros k cur Hs Hc; cbn [split_go].
  - eexists. eexists. split; [reflexivity|]. rewrite <- in_rev. exact Hc.
  - destruct k as [|k]; [|apply IH; [intro H; apply Hs; right; exact H|exact Hc]].
    destruct (starts_with sep (c :: s)).
    + eexists. eexists. split; [reflexivity|]. rewrite <- in_rev. exact Hc.
    + apply IH; [intro H; apply Hs; right; exact H|]. intros [->|H]; [apply Hs; left; reflexivity|exact (Hc H)].
Qed.
Lemma split_either_first sign command s : ~ In 44 s -> exists t l, split_either sign command s = t :: l /\ ~ In 44 t.
Proof. intro H. unfold split_either. destruct (contains sign s); apply split_go_first; auto. Qed.
Lemma split_comma_none s : ~ In 44 s -> forall cur, split_go (u ",") 0 s cur = [rev cur ++ s].
Proof.
  induction s as [|c s IH]; intros H cur; cbn [split_go]; [rewrite app_nil_r; reflexivity|].
  change (u ",") with [44] in *. cbn [starts_with]. destruct (N.eqb_spec 44 c) as [<-|]; [exfalso; apply H; left; reflexivity|]. cbn [andb].
  rewrite IH by (intro X; apply H; right; exact X). cbn [rev]. rewrite <- app_assoc. reflexivity.
Qed.
Lemma strip_in c s : In c (strip s) -> In c s.
Proof. unfold strip. destruct (strip_by_spec is_space s) as (w1 & w2 & E & _ & _). intro H. rewrite E. apply in_or_app. right. apply in_or_app. left. exact H. Qed.
Lemma no_interval s st : ~ In 44 s -> interval_of IS s st = (Raise ValueError, st).
Proof.
  intro H. unfold interval_of. destruct (split_either_first cup_sign (u "\cup") s H) as (t & l & -> & Ht). cbn [unions].
  destruct (split_either_first cap_sign (u "\cap") t Ht) as (t' & l' & -> & Ht'). cbn [intersections]. unfold one_interval. cbv zeta.
  unfold split_on. rewrite split_comma_none by (intro X; apply Ht', strip_in, X). reflexivity.
Qed.
End I.

(** ** The engine decides *)
Section Decide.
Context {St V S : Type}.
Variable IS : ISympy St V S.
Variable cmp : S -> S -> M St bool.
Variable ints : pystr -> pystr.
Variable iter : list pystr -> list pystr.
Variable iter_ok : forall l, Permutation (iter l) (nodup str_eq_dec l).
Variable simpl : pystr -> pystr -> M St bool.
Variable lhs : pystr -> M St unit.
Notation W := (with_intervals IS cmp ints iter iter_ok simpl lhs).

Lemma no_intervals s1 s2 st : ~ In 44 s1 -> ~ In 44 s2 -> possible_intervals W s1 s2 st = (Ret (false, false), st).
Proof.
  intros H1 H2. unfold possible_intervals, str_to_interval, bind, try_bare. cbn [interval_body with_intervals].
  rewrite (no_interval IS s1 st H1). cbn [fst snd]. unfold ret. cbn. rewrite (no_interval IS s2 st H2). reflexivity.
Qed.
(** Comma-free, balanced, not wrapped in brackets, no matrix *)
Definition single (s : pystr) : Prop := s <> [] /\ ~ In 44 s /\ balance s = 0%Z /\ unwrapped s /\ str_is_mat s = false.
Lemma single_decided rec s1 s2 st : single s1 -> single s2 -> compare_norm W rec (NStr s1) (NStr s2) st = are_equal_under_sympy W s1 s2 st.
Proof.
  intros (N1 & C1 & B1 & U1 & M1) (N2 & C2 & B2 & U2 & M2). unfold compare_norm. rewrite <- (try_sympy W s1 s2 st). unfold try_except.
  enough (is_latex_equiv W rec s1 s2 st = are_equal_under_sympy W s1 s2 st) as -> by reflexivity.
  unfold is_latex_equiv. destruct s2 as [|c2 s2]; [congruence|].
  unfold possible_tuple. rewrite (split_plain _ C1 B1 U1), (split_plain _ C2 B2 U2), M1, M2.
  destruct (has_bracket s1); unfold bind; [rewrite (no_intervals _ _ st C1 C2)|]; unfold lift, ret; cbn [fst snd]; rewrite !str_eqb_refl; reflexivity.
Qed.
Lemma tight_single e : wf e -> plain e -> single (tight e).
Proof.
  intros W P. pose proof (plain_finishes [] e (or_introl eq_refl) W P) as F. split; [|split; [|split; [|split]]].
  - destruct (body_first [] e W) as (c & r & E & _). unfold tight. rewrite E. discriminate.
  - apply no_comma_in, F.
  - apply body_balance; auto.
  - apply body_unwrapped; auto. apply plain_printable, P.
  - pose proof latex_no_words as T. cbn [forallb] in T. rewrite !andb_true_iff in T. destruct T as (_ & _ & T & _).
    apply (dead_contains place place_eqb place_eqb_ok places text_alphabet move places_closed); [exact T|apply finishes_readable, F].
Qed.
(** An answer: either text of a plain expression *)
Inductive written (e : arith) : pystr -> Prop := W_latex : written e (latex e) | W_tight : written e (tight e).
Lemma written_normal e s : wf e -> plain e -> literal e = false -> written e s -> string_normalize ints s = NStr (tight e) /\ strip s = s.
Proof.
  intros W P L [|].
  - split; [apply latex_normal; assumption|]. apply finishes_strip, (plain_finishes [32]); auto.
  - split; [apply tight_normal; assumption|]. apply finishes_strip, (plain_finishes []); auto.
Qed.
Theorem engine_decides n e1 e2 s1 s2 st : wf e1 -> plain e1 -> literal e1 = false -> wf e2 -> plain e2 -> literal e2 = false ->
  written e1 s1 -> written e2 s2 ->
  is_equiv W (Datatypes.S n) (Some s1) (Some s2) st = if str_eqb (tight e1) (tight e2) then (Ret true, st) else are_equal_under_sympy W (tight e1) (tight e2) st.
Proof.
  intros W1 P1 L1 W2 P2 L2 H1 H2. cbn [is_equiv is_equiv_str]. unfold is_equiv_body.
  destruct (written_normal e1 s1 W1 P1 L1 H1) as [E1 Q1]. destruct (written_normal e2 s2 W2 P2 L2 H2) as [E2 Q2].
  rewrite Q1, Q2. cbn [int_str with_intervals]. cbv zeta. rewrite E1, E2. destruct (str_eqb s1 s2) eqn:Es.
  - apply str_eqb_eq in Es. subst s2. rewrite E1 in E2. injection E2 as ->. rewrite str_eqb_refl. reflexivity.
  - destruct (str_eqb (tight e1) (tight e2)); [reflexivity|]. apply single_decided; apply tight_single; assumption.
Qed.
End Decide.
