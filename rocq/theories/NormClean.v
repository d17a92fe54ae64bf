(** Characters of normal forms; transparency of wrappers. *)
From Coq Require Import String List NArith ZArith Bool Lia Arith.
From Verif Require Import UnicodeTables PyStr PyStrTheory NumTheory Regex RegexTheory Float64 FloatTheory Constants Normalize NormTheory RegexFirst NormNum NormPct NormMixed NormSci NormTime NormShape.
Import ListNotations.
Local Open Scope N_scope.
Local Arguments N.eqb : simpl never.

(** ** Characters *)
(** dollar, percent, BEL, BS, TAB, FF, CR *)
Definition banned : pystr := [36; 37; 7; 8; 9; 12; 13].
(** These, the space and the upper-case ASCII letters. *)
Definition unwanted (c : N) : Prop := In c banned \/ c = 32 \/ 65 <= c <= 90.

Lemma replace_in c p q s : In c (replace p q s) -> In c s \/ In c q.
Proof.
  unfold replace. generalize O. intros k. revert k. induction s as [|x s IH]; intros k H; [contradiction|]. cbn [replace_go] in H.
  destruct k as [|k]; [|destruct (IH _ H); cbn; auto].
  destruct (starts_with p (x :: s)); [apply in_app_or in H; destruct H as [H|H]; [auto|]|destruct H as [->|H]; [left; left; reflexivity|]];
  destruct (IH _ H); cbn; auto.
Qed.
Lemma replace_gone c q s : ~ In c q -> ~ In c (replace [c] q s).
Proof.
  intros Hq. unfold replace. induction s as [|x s IH]; [auto|]. cbn [replace_go starts_with]. destruct (N.eqb_spec c x) as [->|Hn]; cbn [andb length Nat.sub].
  - intro H. apply in_app_or in H. destruct H; contradiction.
  - intros [->|H]; [apply Hn; reflexivity|contradiction].
Qed.
Lemma strip_in c s : In c (strip s) -> In c s.
Proof. apply strip_incl. Qed.
Lemma mid_in (c : N) s : In c (mid s) -> In c s.
Proof.
  unfold mid. intro H. assert (G : forall l : pystr, In c (removelast l) -> In c l).
  { induction l as [|x l IH]; [intros []|]. cbn [removelast]. destruct l as [|y l]; [intros []|]. intros [->|H']; [left; reflexivity|right; auto]. }
  apply G in H. destruct s as [|x s]; [contradiction|right; exact H].
Qed.

Definition run_ok (r : N * N * N * Z) : bool := match r with (a, _, _, d) => (90 <? Z.of_N a + d)%Z end.
Lemma runs_ok : forallb run_ok lower_runs = true.
Proof. vm_compute. reflexivity. Qed.
Lemma lower_cp_spec x c : In c (lower_cp x) -> 90 < c \/ (c = x /\ ~ 65 <= c <= 90).
Proof.
  unfold lower_cp. destruct (x =? 304); [intros [<-|[<-|[]]]; left; reflexivity|].
  destruct (find _ lower_runs) as [[[[a b] st] d]|] eqn:E.
  - intros [<-|[]]. left. apply find_some in E. destruct E as [Hin E]. pose proof runs_ok as R. rewrite forallb_forall in R. specialize (R _ Hin).
    cbn in R. apply Z.ltb_lt in R. rewrite !andb_true_iff in E. destruct E as [[E _] _]. apply N.leb_le in E. lia.
  - intros [<-|[]]. right. split; [reflexivity|]. intros [H1 H2]. pose proof (find_none _ _ E (65, 90, 1, 32%Z) ltac:(left; reflexivity)) as F. cbv beta iota in F.
    rewrite N.mod_1_r in F. apply N.leb_le in H1. apply N.leb_le in H2. rewrite H1, H2 in F. discriminate.
Qed.
Lemma lower_in s c : In c (lower s) -> 90 < c \/ (In c s /\ ~ 65 <= c <= 90).
Proof.
  unfold lower. intro H. apply in_flat_map in H. destruct H as (x & Hx & Hc). apply lower_cp_spec in Hc. destruct Hc as [Hc|[-> Hc]]; auto.
Qed.
Lemma banned_low c : In c banned -> c <= 37.
Proof. intro H. cbn in H. lia. Qed.

Section Clean.
Variable ints : pystr -> pystr.
Hypothesis Hints : forall x c, unwanted c -> In c (ints x) -> In c x.

Lemma format_e_in f c : In c banned -> ~ In c (format_e f).
Proof.
  intros Hb H. pose proof (banned_low c Hb) as Hl.
  assert (S : forall (n : bool) c, In c (if n then [45] else []) -> c = 45) by (intros [] d; cbn; intuition).
  assert (D : forall n c, In c (dec_N n) -> 48 <= c).
  { intros n d Hd. pose proof (dec_N_digits n) as F. rewrite Forall_forall in F. apply F in Hd. unfold ascii_digit in Hd. lia. }
  assert (P : forall n c, In c (pad2 n) -> 48 <= c).
  { intros n d. unfold pad2. destruct (n <? 10); [intros [<-|Hd]; [lia|]|intro Hd]; eapply D; eassumption. }
  assert (X : forall x c, In c (exp_suffix x) -> 43 <= c).
  { intros x d. unfold exp_suffix. intros [<-|[<-|Hd]]; [lia|destruct (x <? 0)%Z; lia|]. apply P in Hd. lia. }
  destruct f as [|n|n m e]; cbn [format_e] in H.
  - cbn in H. lia.
  - apply in_app_or in H. destruct H as [H|H]; [apply S in H; subst; lia|]. cbn in H. lia.
  - apply in_app_or in H. destruct H as [H|H]; [apply S in H; subst; lia|]. unfold format_e_fin in H.
    destruct (m =? 0); [cbn in H; cbn in Hb; lia|]. destruct (ratio_of m e) as [a b]. destruct (scale10 a b _) as [a' b'].
    destruct (if _ =? 10 ^ 7 then _ else _) as [D' p]. destruct (dec_N D') as [|d r] eqn:Ed; [contradiction|].
    assert (forall c, In c (d :: r) -> 48 <= c) as Dr by (rewrite <- Ed; apply D).
    destruct H as [<-|[<-|H]]; [specialize (Dr d (or_introl eq_refl)); lia|lia|]. apply in_app_or in H. destruct H as [H|H].
    + specialize (Dr c (or_intror H)). lia.
    + apply X in H. lia.
Qed.
Lemma norm_int_in s c : In c banned -> In c (norm_int s) -> In c s.
Proof.
  intros Hb. unfold norm_int. destruct (py_float s) as [f|] eqn:Ef; [|auto]. destruct (float_is_int f); [|auto].
  destruct (contains (u "e") s).
  - unfold float_to_latex_scientific. rewrite Ef. destruct (float_is_zero f); [auto|]. intro H. apply in_app_or in H. destruct H as [H|H].
    + apply replace_in in H. destruct H as [H|H]; [apply format_e_in in H; [contradiction|exact Hb]|]. cbn in H. cbn in Hb. lia.
    + cbn in H. cbn in Hb. lia.
  - destruct (int_round f) as [z|]; [|auto]. intro H. exfalso. pose proof (banned_low c Hb) as Hl.
    assert (D : forall n c, In c (dec_N n) -> 48 <= c).
    { intros n d Hd. pose proof (dec_N_digits n) as F. rewrite Forall_forall in F. apply F in Hd. unfold ascii_digit in Hd. lia. }
    destruct z as [|p|p]; cbn [dec_Z] in H; [cbn in H; lia|apply D in H; lia|destruct H as [<-|H]; [lia|apply D in H; lia]].
Qed.
Lemma lits_banned (l : pystr) c : In c banned -> forallb (fun x => negb (mem_cp banned x)) l = true -> ~ In c l.
Proof.
  intros Hb F H. rewrite forallb_forall in F. apply F in H. apply negb_true_iff in H.
  unfold mem_cp in H. assert (existsb (N.eqb c) banned = true); [|congruence]. apply existsb_exists. exists c. split; [exact Hb|apply N.eqb_refl].
Qed.
Lemma parse_latex_in s c : In c banned -> In c (parse_latex s) -> In c s.
Proof.
  intros Hb H. unfold parse_latex in H. apply strip_in in H.
  repeat (apply replace_in in H; destruct H as [H|H]; [|apply (lits_banned _ c Hb) in H; [contradiction|vm_compute; reflexivity]]). exact H.
Qed.
Lemma sub_banned r t s c : In c banned -> forallb (fun x => negb (mem_cp banned x)) (lits t) = true -> In c (re_sub r t s) -> In c s.
Proof. intros Hb Hl H. apply re_sub_in in H. destruct H as [H|H]; [exact H|]. apply (lits_banned _ c Hb) in H; [contradiction|exact Hl]. Qed.
Lemma further_clean s : (forall c, In c banned -> ~ In c s) -> forall c, unwanted c -> ~ In c (further ints s).
Proof.
  intros Hs c Hc H. unfold further in H. cbv zeta in H.
  set (e0 := if starts_with [123] s && ends_with [125] s then mid s else s) in H.
  set (e1 := norm_int e0) in H. set (e2 := if contains [bslash] e1 then parse_latex e1 else e1) in H.
  set (e3 := re_sub (RSeq (lit 45) (RStarG sp)) [PLit (u "-")] e2) in H.
  set (e4 := inject_mixed e3) in H. set (e5 := replace [32] [] e4) in H.
  assert (C : forall c, In c banned -> ~ In c e5).
  { intros b Hb Hin. apply (Hs b Hb). unfold e5 in Hin. apply replace_in in Hin. destruct Hin as [Hin|[]]. unfold e4, inject_mixed in Hin.
    apply (sub_banned _ _ _ b Hb) in Hin; [|vm_compute; reflexivity]. apply (sub_banned _ _ _ b Hb) in Hin; [|vm_compute; reflexivity].
    unfold e3 in Hin. apply (sub_banned _ _ _ b Hb) in Hin; [|vm_compute; reflexivity].
    unfold e2 in Hin. assert (Hi : In b e1) by (destruct (contains [bslash] e1); [apply (parse_latex_in _ b Hb); exact Hin|exact Hin]).
    apply (norm_int_in _ b Hb) in Hi. unfold e0 in Hi. destruct (_ && _); [apply mid_in; exact Hi|exact Hi]. }
  assert (L : ~ In c (lower e5)).
  { intro Hin. apply lower_in in Hin. destruct Hin as [Hin|[Hin Hup]].
    - destruct Hc as [Hc|[Hc|Hc]]; [apply banned_low in Hc; lia|lia|lia].
    - destruct Hc as [Hc|[->|Hc]]; [apply (C c Hc Hin)| |contradiction]. apply (replace_gone 32 [] e4) in Hin; [exact Hin|auto]. }
  destruct (str_is_int (lower e5)); [|contradiction]. apply Hints in H; [contradiction|exact Hc].
Qed.

Lemma words_clean s c : In c banned -> (c = 37 -> ~ In 37 s) -> ~ In c (rewrite_words s).
Proof.
  intros Hb Hp H. unfold rewrite_words in H. cbv zeta in H.
  apply re_del_in in H. do 4 (apply (sub_banned _ _ _ c Hb) in H; [|vm_compute; reflexivity]).
  assert (R : forall p q e, forallb (fun x => negb (mem_cp banned x)) q = true -> In c (replace p q e) -> In c e).
  { intros p q e Hq Hin. apply replace_in in Hin. destruct Hin as [Hin|Hin]; [exact Hin|]. apply (lits_banned _ c Hb) in Hin; [contradiction|exact Hq]. }
  set (e8 := re_sub and_or_re _ _) in H.
  assert (K : forall k q e, c = k -> ~ In k q -> ~ In c (replace [k] q e)) by (intros k q e -> Hq; apply replace_gone, Hq).
  destruct (N.eq_dec c 13) as [E|N13]; [revert H; apply K; [exact E|vm_compute; intuition discriminate]|]. apply R in H; [|vm_compute; reflexivity].
  destruct (N.eq_dec c 9) as [E|N9]; [revert H; apply K; [exact E|vm_compute; intuition discriminate]|]. apply R in H; [|vm_compute; reflexivity].
  destruct (N.eq_dec c 7) as [E|N7]; [revert H; apply K; [exact E|vm_compute; intuition discriminate]|]. apply R in H; [|vm_compute; reflexivity].
  destruct (N.eq_dec c 8) as [E|N8]; [revert H; apply K; [exact E|vm_compute; intuition discriminate]|]. apply R in H; [|vm_compute; reflexivity].
  destruct (N.eq_dec c 12) as [E|N12]; [revert H; apply K; [exact E|vm_compute; intuition discriminate]|]. apply R in H; [|vm_compute; reflexivity].
  do 3 (apply R in H; [|vm_compute; reflexivity]). unfold e8 in H. apply (sub_banned _ _ _ c Hb) in H; [|vm_compute; reflexivity].
  destruct (N.eq_dec c 36) as [E|N36]; [revert H; apply K; [exact E|vm_compute; intuition discriminate]|]. apply R in H; [|vm_compute; reflexivity].
  apply replace_in in H. destruct H as [H|[H|[]]]; [|symmetry in H; contradiction].
  assert (c = 37) as ->; [cbn in Hb; lia|]. apply (Hp eq_refl H).
Qed.
Lemma time_clean s r c : In c banned -> str_to_time_list s = NStr r -> In c r -> In c s.
Proof.
  intros Hb. unfold str_to_time_list.
  assert (T : forall l, (forall x, In x l -> Forall ascii_digit x) -> ~ In c (time_list l)).
  { intros l Hl Hin. apply (list_alpha l) in Hl. rewrite forallb_forall in Hl. apply Hl in Hin. unfold list_cp, digits_and in Hin.
    apply orb_true_iff in Hin. destruct Hin as [Hin|Hin]; [apply ascii_digit_b in Hin; unfold ascii_digit in Hin; apply banned_low in Hb; lia|].
    cbn in Hb. unfold mem_cp in Hin. apply existsb_exists in Hin. destruct Hin as (x & Hx & E). apply N.eqb_eq in E. subst x. cbn in Hx. lia. }
  assert (Dg : forall n, ~ In c (dec_N n)).
  { intros n Hin. pose proof (dec_N_digits n) as F. rewrite Forall_forall in F. apply F in Hin. unfold ascii_digit in Hin. apply banned_low in Hb. lia. }
  destruct (re_search time_re1 s) as [st|] eqn:E1.
  - destruct (is_pm _); [discriminate|]. intro Er. injection Er as Er. rewrite <- Er. clear Er. intro Hin. apply re_search_sound in E1.
    unfold grp in Hin. destruct (group 1 (caps st)) as [g|] eqn:Eg; [|contradiction]. apply group_in in Eg.
    destruct E1 as (a & w & E & _ & _ & Hk). apply (infix_in w); [exists a, (after st); exact E|]. eapply infix_in; [|exact Hin]. apply (Hk _ _ Eg).
  - destruct (re_search time_re2 s) as [st|] eqn:E2; [|intros [= <-]; auto].
    set (pm := match group 4 (caps st) with Some m => is_pm m | None => false end).
    destruct (negb _); [|destruct (_ =? 0)]; destruct pm; try discriminate; intros [= <-] Hin; exfalso.
    + revert Hin. apply T. intros x [<-|[<-|[<-|[]]]]; apply dec_N_digits.
    + revert Hin. apply Dg.
    + revert Hin. apply T. intros x [<-|[<-|[]]]; apply dec_N_digits.
Qed.
Lemma fold_del_in {A} (f : pystr -> A -> pystr) (c : N) l : (forall s x, In c (f s x) -> In c s) -> forall s, In c (fold_left f l s) -> In c s.
Proof. intro Hf. induction l as [|x l IH]; intros s H; [exact H|]. cbn [fold_left] in H. apply IH in H. apply Hf in H. exact H. Qed.
Lemma del_units_in s c : In c (del_units s) -> In c s.
Proof.
  unfold del_units, del_short_units, del_long_units, del_text_units. intro H.
  apply fold_del_in in H; [|intros ? ?; apply re_del_in]. apply fold_del_in in H; [|intros ? ?; apply re_del_in]. apply re_del_in in H.
  apply fold_del_in in H; [exact H|]. intros t x Hx. apply re_del_in in Hx. apply re_del_in in Hx. exact Hx.
Qed.
(** What the end of the pipeline returns. *)
Lemma tail_shape s : (exists out, norm_tail ints s = NStr out /\ forall c, unwanted c -> ~ In c out) \/ (exists x y, norm_tail ints s = NSet [x; y]).
Proof.
  unfold norm_tail. cbv zeta. destruct (re_search base_re (del_tex_space s)) as [st|]; [right; eauto|].
  set (e := del_tex_space s). set (e1 := if contains (u "%") e then _ else e).
  destruct (if contains (u "%") e then py_float e1 else None) as [f|]; [right; eauto|].
  destruct (str_to_time_list (rewrite_words e1)) as [r|l] eqn:Et.
  - unfold norm_circ. destruct (re_test circ_re _); [right; eauto|]. left. eexists. split; [reflexivity|]. apply further_clean.
    intros c Hb Hin. apply del_units_in in Hin. apply (time_clean _ _ c Hb Et) in Hin. revert Hin. apply words_clean; [exact Hb|]. intros ->.
    unfold e1. destruct (contains (u "%") e) eqn:Ec.
    + apply replace_gone. auto.
    + intro Hin. change (u "%") with [37] in Ec. apply contains_one in Hin. congruence.
  - right. unfold str_to_time_list in Et. destruct (re_search time_re1 _) as [st|].
    + destruct (is_pm _); [|discriminate]. injection Et as <-. eauto.
    + destruct (re_search time_re2 _) as [st|]; [|discriminate]. cbv zeta in Et.
      set (pm := match group 4 (caps st) with Some m => is_pm m | None => false end) in Et.
      destruct (negb _); [|destruct (_ =? 0)]; destruct pm; try discriminate; injection Et as <-; eauto.
Qed.
Lemma normalize_shape s :
  (exists out, string_normalize ints s = NStr out /\ forall c, unwanted c -> ~ In c out) \/
  (exists x y, string_normalize ints s = NSet [x; y]) \/
  (exists t, unwraps s t /\ empty_condition t /\ string_normalize ints s = NStr t).
Proof.
  destruct (normalize_cases ints s) as [(t & _ & ->)|H]; [|auto]. destruct (tail_shape (prepared t)) as [H|H]; auto.
Qed.
Lemma normalize_clean s out : string_normalize ints s = NStr out -> (forall t, unwraps s t -> ~ empty_condition t) ->
  forall c, unwanted c -> ~ In c out.
Proof.
  intros E Hf. destruct (normalize_shape s) as [(o & Eo & Ho)|[(x & y & E2)|(t & Hu & He & _)]].
  - rewrite E in Eo. injection Eo as <-. exact Ho.
  - rewrite E in E2. discriminate E2.
  - destruct (Hf t Hu He).
Qed.
End Clean.
Lemma unwanted_spec c : unwanted c <-> In c [36; 37; 7; 8; 9; 12; 13; 32] \/ 65 <= c <= 90.
Proof. unfold unwanted, banned. cbn [In]. intuition. Qed.
Lemma tail_result ints s : (exists out, norm_tail ints s = NStr out) \/ (exists x y, norm_tail ints s = NSet [x; y]).
Proof.
  unfold norm_tail. cbv zeta. destruct (re_search base_re (del_tex_space s)) as [st|]; [right; eauto|].
  set (e := del_tex_space s). set (e1 := if contains (u "%") e then _ else e).
  destruct (if contains (u "%") e then py_float e1 else None) as [f|]; [right; eauto|].
  destruct (str_to_time_list (rewrite_words e1)) as [r|l] eqn:Et.
  - unfold norm_circ. destruct (re_test circ_re _); eauto.
  - right. unfold str_to_time_list in Et. destruct (re_search time_re1 _) as [st|].
    + destruct (is_pm _); [|discriminate]. injection Et as <-. eauto.
    + destruct (re_search time_re2 _) as [st|]; [|discriminate]. cbv zeta in Et.
      set (pm := match group 4 (caps st) with Some m => is_pm m | None => false end) in Et.
      destruct (negb _); [|destruct (_ =? 0)]; destruct pm; try discriminate; injection Et as <-; eauto.
Qed.
Lemma normalize_results ints s :
  (exists t, unwraps s t /\ ((exists out, string_normalize ints s = NStr out) \/ (exists x y, string_normalize ints s = NSet [x; y])) /\
     string_normalize ints s = norm_tail ints (prepared t)) \/
  (exists t, unwraps s t /\ empty_condition t /\ string_normalize ints s = NStr t).
Proof.
  destruct (normalize_cases ints s) as [(t & Hu & E)|H]; [left|right; exact H]. exists t. split; [exact Hu|]. split; [|exact E].
  rewrite E. apply tail_result.
Qed.
Lemma not_idempotent : exists s, forall ints, exists a b, string_normalize ints s = NStr a /\ string_normalize ints a = NStr b /\ a <> b.
Proof.
  exists (u "$\text{x=3}$"). intro ints. exists (u "\text{x=3}"), (u "x=3"). split; [vm_compute; reflexivity|]. split; [vm_compute; reflexivity|discriminate].
Qed.

(** ** Wrappers are transparent *)
(** No rewriting by [_str_matrix_normalize]: no cases or array environment, and no double backslash
    unless it separates the rows of a matrix. *)
Definition plain_text (e : pystr) : Prop :=
  ~ infix (u "{cases}") e /\ ~ infix (u "{array}") e /\
  (~ infix (u "\\") e \/ (infix (u "\begin") e /\ infix (u "matrix") e /\ ~ infix (u "\\begin") e)).
Lemma infix_contains p e : infix p e <-> contains p e = true.
Proof. rewrite contains_spec. reflexivity. Qed.
Lemma not_infix_contains p e : ~ infix p e -> contains p e = false.
Proof. intro H. destruct (contains p e) eqn:E; [apply infix_contains in E; contradiction|reflexivity]. Qed.
Lemma plain_matrix e : plain_text e -> str_matrix_normalize e = e.
Proof.
  intros (H1 & H2 & H3). unfold str_matrix_normalize. rewrite (not_infix_contains _ _ H1), (not_infix_contains _ _ H2).
  destruct H3 as [H3|(H3 & H4 & H5)].
  - destruct (negb _); [|reflexivity]. apply replace_absent, not_infix_contains, H3.
  - rewrite (not_infix_contains _ _ H5), (proj1 (infix_contains _ _) H3), (proj1 (infix_contains _ _) H4). reflexivity.
Qed.
Lemma strip_ends a m b : a <> 32 -> b <> 32 -> strip_sp (a :: m ++ [b]) = a :: m ++ [b].
Proof.
  intros Ha Hb. apply strip_by_id; [apply N.eqb_neq; auto|]. change (a :: m ++ [b]) with ((a :: m) ++ [b]). rewrite rev_app_distr. cbn [rev app].
  apply N.eqb_neq. auto.
Qed.
Lemma app_last_inj {A} (a b : list A) x y : a ++ [x] = b ++ [y] -> a = b /\ x = y.
Proof. apply app_inj_tail. Qed.
Definition wrap_text (cmd s : pystr) : pystr := [92] ++ cmd ++ [123] ++ s ++ [125].
Lemma wrap_text_ends cmd s : exists m, wrap_text cmd s = 92 :: m ++ [125].
Proof. exists (cmd ++ [123] ++ s). unfold wrap_text. cbn [app]. f_equal. rewrite <- app_assoc. reflexivity. Qed.
Lemma text_transparent ints cmd s : In cmd [u "text"; u "mbox"] -> s <> [] -> (match s with c :: _ => is_space c = false | [] => True end) ->
  plain_text (wrap_text cmd s) -> string_normalize ints (wrap_text cmd s) = string_normalize ints s.
Proof.
  intros Hc Hne Hsp Hp. rewrite (normalize_step ints (wrap_text cmd s)). unfold prepared.
  assert (strip_sp (wrap_text cmd s) = wrap_text cmd s) as -> by (destruct (wrap_text_ends cmd s) as (m & ->); apply strip_ends; discriminate).
  rewrite (plain_matrix _ Hp).
  destruct (text_wrap_complete (wrap_text cmd s) s) as (st & E).
  { exists cmd, [], [], []. repeat split; auto. }
  rewrite E. rewrite anchored_search in E by reflexivity. apply hd_error_in in E. apply in_text_wrap in E.
  destruct E as (c & ws1 & ws2 & t & nl & Hc' & W & Hend & Ht & E & ->). f_equal. unfold grp. cbn [caps group Nat.eqb].
  rewrite forallb_app in W. apply andb_true_iff in W. destruct W as [W1 W2].
  assert (nl = []) as ->.
  { apply at_end_nl in Hend. destruct Hend as [->| ->]; [reflexivity|]. destruct (wrap_text_ends cmd s) as (m & Em). rewrite Em in E.
    change (92 :: m ++ [125]) with ((92 :: m) ++ [125]) in E. rewrite !app_assoc in E. apply app_last_inj in E. destruct E as [_ E]. discriminate. }
  unfold wrap_text in E. apply app_inv_head in E. cbn [app] in E.
  assert (ws1 = []) as ->.
  { destruct ws1 as [|w ws1]; [reflexivity|]. cbn [forallb] in W1. apply andb_true_iff in W1. destruct W1 as [W1 _].
    destruct Hc as [<-|[<-|[]]]; cbn in E; injection E as E _; subst w; vm_compute in W1; discriminate. }
  cbn [app] in E.
  assert (Ec : s ++ [125] = ws2 ++ t ++ [125]).
  { destruct Hc as [<-|[<-|[]]], Hc' as [<-|[<-|[]]]; cbn in E; try discriminate; injection E as E; exact E. }
  assert (ws2 = []) as ->.
  { destruct ws2 as [|w ws2]; [reflexivity|]. cbn [forallb] in W2. apply andb_true_iff in W2. destruct W2 as [W2 _].
    destruct s as [|d s]; [contradiction|]. cbn in Ec. injection Ec as -> _. rewrite Hsp in W2. discriminate. }
  cbn [app] in Ec. apply app_inv_tail in Ec. symmetry. exact Ec.
Qed.

Lemma flat_map_nil {A B} (g : A -> list B) l : (forall x, In x l -> g x = []) -> flat_map g l = [].
Proof. induction l as [|x l IH]; intro H; [reflexivity|]. cbn. rewrite (H x (or_introl eq_refl)). apply IH. intros; apply H; right; assumption. Qed.
(** A greedy [.*]: the longest prefix after which the rest matches. *)
Lemma greedy_any {B} (g : mst -> list B) cs y : forall w r f pre, (length (w ++ r) <= f)%nat ->
  hd_error (g (MSt (rev w ++ pre) r cs)) = Some y ->
  (forall v r', r = v ++ r' -> v <> [] -> g (MSt (rev v ++ rev w ++ pre) r' cs) = []) ->
  hd_error (flat_map g (star_matches (matches (RChr CAny)) true f (MSt pre (w ++ r) cs))) = Some y.
Proof.
  induction w as [|c w IH]; intros r f pre Hf Hy Hn.
  - cbn [app rev] in *. destruct f as [|f]; [destruct r; [|cbn in Hf; lia]; cbn; rewrite app_nil_r; exact Hy|].
    cbn [star_matches]. rewrite flat_map_app. rewrite flat_map_nil; [cbn; rewrite app_nil_r; exact Hy|].
    intros st Hst. apply in_flat_map in Hst. destruct Hst as (st1 & H1 & H2). apply filter_In in H1. destruct H1 as [H1 _].
    apply in_chr in H1. destruct H1 as (d & s1 & -> & _ & ->). apply star_chr_in in H2; [|cbn in Hf; lia]. destruct H2 as (v & s' & -> & _ & ->).
    specialize (Hn (d :: v) s' eq_refl ltac:(discriminate)). cbn [rev] in Hn. rewrite <- app_assoc in Hn. exact Hn.
  - destruct f as [|f]; [cbn in Hf; lia|]. cbn [app star_matches]. rewrite flat_map_app. apply hd_app.
    cbn [matches after before caps filter cls_in]. assert (Nat.ltb (length (w ++ r)) (length (c :: w ++ r)) = true) as -> by (apply Nat.ltb_lt; cbn; lia).
    cbn [flat_map]. rewrite app_nil_r. apply IH; [cbn in Hf; lia| |].
    + cbn [rev] in Hy. rewrite <- app_assoc in Hy. exact Hy.
    + intros v r' E Hv. specialize (Hn v r' E Hv). cbn [rev] in Hn. rewrite <- !app_assoc in Hn. rewrite <- ?app_assoc. exact Hn.
Qed.
Lemma fm_grp_any n k pre w r cs st : fm k (MSt (rev w ++ pre) r ((n, w) :: cs)) st ->
  (forall v r' cs', r = v ++ r' -> v <> [] -> nm k (MSt (rev v ++ rev w ++ pre) r' cs')) ->
  fm (RSeq (RGrp n (RStarG (RChr CAny))) k) (MSt pre (w ++ r) cs) st.
Proof.
  intros Hk Hn. unfold fm. cbn [matches RStarG]. rewrite flat_map_concat_map, map_map, <- flat_map_concat_map. cbn [after before caps].
  apply greedy_any; [apply le_n| |].
  - cbn [after before caps]. rewrite app_length, Nat.add_sub, firstn_app, firstn_all, Nat.sub_diag. cbn [firstn]. rewrite app_nil_r. exact Hk.
  - intros v r' E Hv. cbn [after before caps]. apply Hn; assumption.
Qed.
Definition build_set (a s : pystr) : pystr := u "\{" ++ a ++ [124] ++ s ++ u "\}".
Lemma set_builder_match a s : ~ In 124 s -> exists st, re_search set_builder_re (build_set a s) = Some st /\ grp 2 st = s.
Proof.
  intro Hs. rewrite anchored_search by reflexivity.
  exists (MSt (rev (u "\}") ++ rev s ++ 124 :: rev a ++ rev (u "\{")) [] [(2%nat, s); (1%nat, a)]). split; [|reflexivity].
  apply fm_match_at. unfold set_builder_re, build_set. cbn [rseq].
  eapply fm_seq; [apply fm_bol|]. eapply fm_seq; [apply fm_rstr|].
  apply (fm_grp_any 1 _ _ a ([124] ++ s ++ u "\}")).
  - eapply fm_seq; [apply fm_chr; reflexivity|].
    apply (fm_grp_any 2 (rseq [rs "\}"; REol]) _ s (u "\}")).
    + cbn [rseq]. eapply fm_seq; [apply (fm_rstr (u "\}") _ [])|]. eapply fm_seq; [apply fm_eol|]. rewrite app_nil_r. apply fm_eps.
    + intros v r' cs' E Hv. cbn [rseq]. unfold nm. destruct (matches _ _) as [|x l] eqn:Em; [reflexivity|exfalso].
      assert (Hin : In x (matches (RSeq (rs "\}") (RSeq REol REps)) (MSt (rev v ++ rev s ++ 124 :: rev a ++ rev (u "\{") ++ []) r' cs'))) by (rewrite Em; left; reflexivity).
      apply in_seq in Hin. destruct Hin as (st1 & H1 & _). apply in_rstr in H1. destruct H1 as (s' & -> & _).
      change (u "\}") with [92; 125] in E. destruct v as [|c [|d v]]; [contradiction| |]; cbn in E; try discriminate. injection E as _ _ E.
      destruct v; discriminate.
  - intros v r' cs' E Hv. destruct v as [|c v]; [contradiction|]. cbn [app] in E. injection E as <- E.
    apply nm_seq_l. destruct r' as [|d r']; [apply nm_chr_nil|]. apply nm_chr. cbn [cls_in]. apply N.eqb_neq. intros <-.
    assert (Hin : In 124 (s ++ u "\}")) by (rewrite E; apply in_or_app; right; left; reflexivity).
    apply in_app_or in Hin. destruct Hin as [Hin|Hin]; [contradiction|cbn in Hin; lia].
Qed.
Lemma set_transparent ints a s : s <> [] -> ~ In 124 s -> plain_text (build_set a s) ->
  string_normalize ints (build_set a s) = string_normalize ints s.
Proof.
  intros Hne Hs Hp. rewrite (normalize_step ints (build_set a s)). unfold prepared.
  assert (strip_sp (build_set a s) = build_set a s) as ->.
  { unfold build_set. change (u "\{") with [92; 123]. change (u "\}") with ([92] ++ [125]). rewrite !app_assoc. 
    replace (((([92; 123] ++ a) ++ [124]) ++ s) ++ [92]) with (92 :: 123 :: a ++ [124] ++ s ++ [92]) by (rewrite <- !app_assoc; reflexivity).
    apply (strip_ends 92 (123 :: a ++ [124] ++ s ++ [92]) 125); discriminate. }
  rewrite (plain_matrix _ Hp).
  destruct (re_search text_wrap_re (build_set a s)) as [st|] eqn:E.
  { exfalso. apply text_wrap_sound in E. destruct E as (c & ws1 & ws2 & nl & Hc & W & _ & _ & E). unfold build_set in E.
    change (u "\{") with [92; 123] in E. cbn [app] in E. injection E as E. destruct ws1 as [|w ws1].
    - destruct Hc as [<-|[<-|[]]]; discriminate.
    - cbn in E. injection E as <- _. cbn in W. discriminate. }
  destruct (set_builder_match a s Hs) as (st & -> & ->). destruct s as [|c s]; [contradiction|reflexivity].
Qed.
