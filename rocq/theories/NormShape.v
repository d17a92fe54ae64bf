(** Shape of the results of [string_normalize]; wrappers; the recursion. *)
From Coq Require Import String List NArith ZArith Bool Lia Arith.
From Verif Require Import UnicodeTables PyStr PyStrTheory NumTheory Regex RegexTheory Float64 FloatTheory Constants Normalize NormTheory RegexFirst NormNum.
Import ListNotations.
Local Open Scope N_scope.
Local Arguments N.eqb : simpl never.

(** ** Wrappers, as text *)
(** [\text{t}] or [\mbox{t}], white space allowed after the backslash and the brace, maybe a final newline *)
Definition text_wrapped (e t : pystr) : Prop :=
  exists c ws1 ws2 nl, In c [u "text"; u "mbox"] /\ forallb is_space (ws1 ++ ws2) = true /\ (nl = [] \/ nl = [10]) /\ t <> [] /\
    e = [92] ++ ws1 ++ c ++ [123] ++ ws2 ++ t ++ [125] ++ nl.
(** [\{a|t\}] *)
Definition set_built (e t : pystr) : Prop :=
  exists a nl, (nl = [] \/ nl = [10]) /\ e = u "\{" ++ a ++ [124] ++ t ++ u "\}" ++ nl.

Lemma at_end_nl s : at_end s = true -> s = [] \/ s = [10].
Proof. destruct s as [|c [|d s]]; [auto| |discriminate]. cbn. destruct (N.eqb_spec c 10); [subst; auto|discriminate]. Qed.

Lemma in_grp_any_plus n pre s cs st' : In st' (matches (RGrp n (RPlusLazy (RChr CAny))) (MSt pre s cs)) <->
  exists w s', s = w ++ s' /\ w <> [] /\ st' = MSt (rev w ++ pre) s' ((n, w) :: cs).
Proof.
  rewrite in_grp. unfold RPlusLazy. setoid_rewrite in_seq. split.
  - intros (st1 & w & (st2 & H1 & H2) & E & ->). apply in_chr in H1. destruct H1 as (c & s1 & -> & _ & ->).
    apply in_star_chr in H2. destruct H2 as (v & s' & -> & _ & ->). cbn [after before caps] in *.
    exists (c :: v), s'. change (c :: v ++ s') with ((c :: v) ++ s') in E. apply app_inv_tail in E. subst w.
    split; [reflexivity|]. split; [discriminate|]. cbn [rev]. rewrite <- app_assoc. reflexivity.
  - intros (w & s' & -> & Hw & ->). destruct w as [|c v]; [contradiction|]. exists (MSt (rev (c :: v) ++ pre) s' cs), (c :: v). split.
    + exists (MSt (c :: pre) (v ++ s') cs). split; [apply in_chr; exists c, (v ++ s'); auto|]. apply in_star_chr. exists v, s'.
      split; [reflexivity|]. split; [apply forallb_forall; reflexivity|]. cbn [rev]. rewrite <- app_assoc. reflexivity.
    + split; reflexivity.
Qed.
Lemma in_text_wrap e st : In st (matches text_wrap_re (MSt [] e [])) <->
  exists c ws1 ws2 t nl, In c [u "text"; u "mbox"] /\ forallb is_space (ws1 ++ ws2) = true /\ at_end nl = true /\ t <> [] /\
    e = [92] ++ ws1 ++ c ++ [123] ++ ws2 ++ t ++ [125] ++ nl /\
    st = MSt (125 :: rev t ++ rev ws2 ++ 123 :: rev c ++ rev ws1 ++ [92]) nl [(2%nat, t); (1%nat, c)].
Proof.
  unfold text_wrap_re. repeat setoid_rewrite in_rseq_cons. setoid_rewrite in_rseq_nil. split.
  - intros (st1 & H1 & st2 & H2 & st3 & H3 & st4 & H4 & st5 & H5 & st6 & H6 & st7 & H7 & st8 & H8 & st9 & H9 & ->).
    subst st1. apply in_chr in H2. destruct H2 as (c & s2 & -> & Hc & ->). cbn in Hc. apply N.eqb_eq in Hc. subst c.
    apply in_star_chr in H3. destruct H3 as (ws1 & s3 & -> & W1 & ->).
    apply in_grp in H4. destruct H4 as (st4' & c & H4 & E4 & ->). apply in_alt in H4.
    assert (X : exists s4, In c [u "text"; u "mbox"] /\ s3 = c ++ s4 /\ st4' = MSt (rev c ++ rev ws1 ++ [92]) s4 []).
    { destruct H4 as [H4|H4]; apply in_rstr in H4; destruct H4 as (s4 & -> & ->); cbn [after] in E4; apply app_inv_tail in E4; subst c;
      exists s4; cbn [In]; auto. }
    destruct X as (s4 & Hc & -> & ->). cbn [after before caps] in *. clear E4 H4.
    apply in_chr in H5. destruct H5 as (x & s5 & -> & Hx & ->). cbn in Hx. apply N.eqb_eq in Hx. subst x.
    apply in_star_chr in H6. destruct H6 as (ws2 & s6 & -> & W2 & ->).
    apply in_grp_any_plus in H7. destruct H7 as (t & s7 & -> & Ht & ->).
    apply in_chr in H8. destruct H8 as (x & s8 & -> & Hx & ->). cbn in Hx. apply N.eqb_eq in Hx. subst x.
    apply in_eol in H9. destruct H9 as [Hend ->].
    exists c, ws1, ws2, t, s8. rewrite forallb_app. change (cls_in CSpace) with is_space in W1, W2. rewrite W1, W2.
    repeat (split; [auto; reflexivity|]). f_equal.
  - intros (c & ws1 & ws2 & t & nl & Hc & W & Hend & Ht & -> & ->). rewrite forallb_app in W. apply andb_true_iff in W. destruct W as [W1 W2].
    eexists. split; [reflexivity|].
    eexists. split; [apply in_chr; eexists; eexists; split; [reflexivity|split; reflexivity]|].
    eexists. split; [apply in_star_chr; exists ws1; eexists; split; [reflexivity|split; [exact W1|reflexivity]]|].
    eexists. split.
    { apply in_grp. exists (MSt (rev c ++ rev ws1 ++ [92]) ([123] ++ ws2 ++ t ++ [125] ++ nl) []), c. split; [|split; reflexivity].
      apply in_alt. destruct Hc as [<-|[<-|[]]]; [left|right]; apply in_rstr; eexists; split; reflexivity. }
    eexists. split; [apply in_chr; eexists; eexists; split; [reflexivity|split; reflexivity]|].
    eexists. split; [apply in_star_chr; exists ws2; eexists; split; [reflexivity|split; [exact W2|reflexivity]]|].
    eexists. split; [apply in_grp_any_plus; exists t; eexists; split; [reflexivity|split; [exact Ht|reflexivity]]|].
    eexists. split; [apply in_chr; eexists; eexists; split; [reflexivity|split; reflexivity]|].
    eexists. split; [apply in_eol; split; [exact Hend|reflexivity]|]. reflexivity.
Qed.
Lemma text_wrap_sound e st : re_search text_wrap_re e = Some st -> text_wrapped e (grp 2 st).
Proof.
  rewrite anchored_search by reflexivity. intro H. apply hd_error_in in H. apply in_text_wrap in H.
  destruct H as (c & ws1 & ws2 & t & nl & Hc & W & Hend & Ht & -> & ->). apply at_end_nl in Hend.
  exists c, ws1, ws2, nl. auto 10.
Qed.
Lemma text_wrap_complete e t : text_wrapped e t -> exists st, re_search text_wrap_re e = Some st.
Proof.
  intros (c & ws1 & ws2 & nl & Hc & W & Hnl & Ht & ->). rewrite anchored_search by reflexivity. unfold match_at.
  destruct (matches text_wrap_re _) as [|x l] eqn:E; [|exists x; reflexivity]. exfalso.
  assert (H : In (MSt (125 :: rev t ++ rev ws2 ++ 123 :: rev c ++ rev ws1 ++ [92]) nl [(2%nat, t); (1%nat, c)])
               (matches text_wrap_re (MSt [] ([92] ++ ws1 ++ c ++ [123] ++ ws2 ++ t ++ [125] ++ nl) []))).
  { apply in_text_wrap. exists c, ws1, ws2, t, nl. repeat (split; [assumption|]). split; [destruct Hnl as [-> | ->]; reflexivity|auto]. }
  rewrite E in H. exact H.
Qed.
Lemma in_set_builder e st : In st (matches set_builder_re (MSt [] e [])) <->
  exists a t nl, at_end nl = true /\ e = u "\{" ++ a ++ [124] ++ t ++ u "\}" ++ nl /\
    st = MSt (rev (u "\}") ++ rev t ++ 124 :: rev a ++ rev (u "\{")) nl [(2%nat, t); (1%nat, a)].
Proof.
  unfold set_builder_re, rs. repeat setoid_rewrite in_rseq_cons. setoid_rewrite in_rseq_nil. split.
  - intros (st1 & H1 & st2 & H2 & st3 & H3 & st4 & H4 & st5 & H5 & st6 & H6 & st7 & H7 & ->).
    subst st1. apply in_rstr in H2. destruct H2 as (s2 & -> & ->).
    apply in_grp in H3. destruct H3 as (st' & a & H3 & E3 & ->). apply in_star_chr in H3. destruct H3 as (w & s3 & -> & _ & ->).
    cbn [after before caps] in *. apply app_inv_tail in E3. subst w.
    apply in_chr in H4. destruct H4 as (x & s4 & -> & Hx & ->). cbn in Hx. apply N.eqb_eq in Hx. subst x.
    apply in_grp in H5. destruct H5 as (st' & t & H5 & E5 & ->). apply in_star_chr in H5. destruct H5 as (w & s5 & -> & _ & ->).
    cbn [after before caps] in *. apply app_inv_tail in E5. subst w.
    apply in_rstr in H6. destruct H6 as (s6 & -> & ->). apply in_eol in H7. destruct H7 as [Hend ->].
    exists a, t, s6. split; [exact Hend|]. split; [reflexivity|]. f_equal.
  - intros (a & t & nl & Hend & -> & ->).
    eexists. split; [reflexivity|].
    eexists. split; [apply in_rstr; eexists; split; reflexivity|].
    eexists. split.
    { apply in_grp. eexists. exists a. split; [apply in_star_chr; exists a; eexists; split; [reflexivity|split; [apply forallb_forall; reflexivity|reflexivity]]|split; reflexivity]. }
    eexists. split; [apply in_chr; eexists; eexists; split; [reflexivity|split; reflexivity]|].
    eexists. split.
    { apply in_grp. eexists. exists t. split; [apply in_star_chr; exists t; eexists; split; [reflexivity|split; [apply forallb_forall; reflexivity|reflexivity]]|split; reflexivity]. }
    eexists. split; [apply in_rstr; eexists; split; reflexivity|].
    eexists. split; [apply in_eol; split; [exact Hend|reflexivity]|]. reflexivity.
Qed.
Lemma set_builder_sound e st : re_search set_builder_re e = Some st -> set_built e (grp 2 st).
Proof.
  rewrite anchored_search by reflexivity. intro H. apply hd_error_in in H. apply in_set_builder in H.
  destruct H as (a & t & nl & Hend & -> & ->). apply at_end_nl in Hend. exists a, nl. auto.
Qed.

(** ** The recursion is bounded by the number of opening braces *)
Definition count (c : N) (s : pystr) : nat := count_occ N.eq_dec s c.
Local Arguments count c%N_scope s%N_scope.
Lemma count_app c a b : count c (a ++ b) = (count c a + count c b)%nat.
Proof. apply count_occ_app. Qed.
Lemma count_cons c x s : count c (x :: s) = ((if N.eq_dec x c then 1 else 0) + count c s)%nat.
Proof. unfold count. cbn. destruct (N.eq_dec x c); reflexivity. Qed.
Lemma count_replace c p q s : p <> [] -> (count c q <= count c p)%nat -> (count c (replace p q s) <= count c s)%nat.
Proof.
  intros Hp Hq. unfold replace.
  assert (G : forall n s, (length s <= n)%nat -> (count c (replace_go p q O s) <= count c s)%nat).
  { induction n as [|n IH]; intros [|x t] Hl; try (cbn; lia); [cbn in Hl; lia|].
    cbn [replace_go]. destruct (starts_with p (x :: t)) eqn:E.
    - apply starts_with_spec in E. destruct E as (r & E). destruct p as [|y p]; [contradiction|]. cbn in E. injection E as -> ->.
      cbn [length]. rewrite Nat.sub_succ, Nat.sub_0_r.
      assert (K : forall k l, replace_go (y :: p) q (length k) (k ++ l) = replace_go (y :: p) q O l).
      { induction k as [|z k IHk]; intro l; [destruct l; reflexivity|]. cbn [length app replace_go]. apply IHk. }
      rewrite K, count_app, app_comm_cons, count_app. specialize (IH r). cbn [length] in Hl. rewrite app_length in Hl. specialize (IH ltac:(lia)). lia.
    - rewrite !count_cons. specialize (IH t ltac:(cbn in Hl; lia)). destruct (N.eq_dec x c); lia. }
  apply (G (length s)). lia.
Qed.
Lemma count_strip c s : (count c (strip_sp s) <= count c s)%nat.
Proof.
  destruct (strip_by_spec (N.eqb 32) s) as (a & b & E & _). unfold strip_sp. rewrite E at 2. rewrite !count_app. lia.
Qed.
Lemma count_matrix s : (count 123 (str_matrix_normalize s) <= count 123 s)%nat.
Proof.
  unfold str_matrix_normalize.
  assert (A : forall (p q : pystr) (b : bool) s, p <> [] -> (count 123 q <= count 123 p)%nat -> (count 123 (if b then replace p q s else s) <= count 123 s)%nat).
  { intros p q [] t H1 H2; [apply count_replace; assumption|lia]. }
  set (s1 := if contains (u "{cases}") s then _ else _). assert (H1 : (count 123 s1 <= count 123 s)%nat) by (apply A; [discriminate|vm_compute; lia]).
  set (s2 := if contains (u "{array}") s1 then _ else _). assert (H2 : (count 123 s2 <= count 123 s1)%nat) by (apply A; [discriminate|vm_compute; lia]).
  destruct (negb _); [|lia]. pose proof (count_replace 123 (u "\\") (u "\") s2 ltac:(discriminate) ltac:(vm_compute; lia)). lia.
Qed.
Lemma count_text e t : text_wrapped e t -> (count 123 t < count 123 e)%nat.
Proof.
  intros (c & ws1 & ws2 & nl & _ & _ & _ & _ & ->). rewrite !count_app. change (count 123 [123]) with 1%nat. lia.
Qed.
Lemma count_set e t : set_built e t -> (count 123 t < count 123 e)%nat.
Proof. intros (a & nl & _ & ->). rewrite !count_app. change (count 123 (u "\{")) with 1%nat. lia. Qed.

(** What one unwrapping step does. *)
Definition prepared (s : pystr) : pystr := str_matrix_normalize (strip_sp s).
Definition unwrap1 (s t : pystr) : Prop := text_wrapped (prepared s) t \/ (set_built (prepared s) t /\ t <> []).
Inductive unwraps : pystr -> pystr -> Prop :=
| uw_refl s : unwraps s s
| uw_step s t v : unwrap1 s t -> unwraps t v -> unwraps s v.
(** Set-builder text without a condition. *)
Definition empty_condition (s : pystr) : Prop := set_built (prepared s) [].

Lemma count_unwrap s t : unwrap1 s t -> (count 123 t < count 123 s)%nat.
Proof.
  intro H. pose proof (count_strip 123 s). pose proof (count_matrix (strip_sp s)). fold (prepared s) in *.
  destruct H as [H|[H _]]; [apply count_text in H|apply count_set in H]; lia.
Qed.

Section Rec.
Variable ints : pystr -> pystr.
Lemma fuel_irrelevant n m s : (count 123 s <= n)%nat -> (count 123 s <= m)%nat -> norm_fuel ints n s = norm_fuel ints m s.
Proof.
  revert m s. induction n as [|n IH]; intros [|m] s Hn Hm; cbn [norm_fuel]; fold (prepared s);
  try (destruct (re_search text_wrap_re (prepared s)) as [st|] eqn:E1;
  [apply text_wrap_sound in E1; pose proof (count_unwrap s _ (or_introl E1)); try lia; apply IH; lia|];
  destruct (re_search set_builder_re (prepared s)) as [st|] eqn:E2; [|reflexivity];
  apply set_builder_sound in E2; destruct (grp 2 st) as [|c r] eqn:Eg; [reflexivity|];
  assert (U : unwrap1 s (c :: r)) by (right; split; [exact E2|discriminate]);
  pose proof (count_unwrap _ _ U); try lia; apply IH; lia).
Qed.
Lemma count_le_length c s : (count c s <= length s)%nat.
Proof. induction s as [|x s IH]; [apply le_n|]. rewrite count_cons. cbn [length]. destruct (N.eq_dec x c); lia. Qed.
Lemma normalize_fuel n s : (count 123 s <= n)%nat -> norm_fuel ints n s = string_normalize ints s.
Proof. intro H. unfold string_normalize. apply fuel_irrelevant; [exact H|]. pose proof (count_le_length 123 s). lia. Qed.

(** The recursion, without fuel. *)
Lemma normalize_step s : string_normalize ints s =
  match re_search text_wrap_re (prepared s) with
  | Some st => string_normalize ints (grp 2 st)
  | None =>
    match re_search set_builder_re (prepared s) with
    | Some st => match grp 2 st with [] => NStr s | cond => string_normalize ints cond end
    | None => norm_tail ints (prepared s)
    end
  end.
Proof.
  rewrite <- (normalize_fuel (S (count 123 s)) s) by lia. cbn [norm_fuel]. fold (prepared s).
  destruct (re_search text_wrap_re (prepared s)) as [st|] eqn:E1.
  - apply normalize_fuel. apply text_wrap_sound in E1. pose proof (count_unwrap s _ (or_introl E1)). lia.
  - destruct (re_search set_builder_re (prepared s)) as [st|] eqn:E2; [|reflexivity].
    apply set_builder_sound in E2. destruct (grp 2 st) as [|c r] eqn:Eg; [reflexivity|].
    assert (U : unwrap1 s (c :: r)) by (right; split; [exact E2|discriminate]). pose proof (count_unwrap _ _ U). apply normalize_fuel. lia.
Qed.
(** Every result comes from the end of the pipeline on an unwrapped string, or is an unwrapped string without condition. *)
Lemma normalize_cases s :
  (exists t, unwraps s t /\ string_normalize ints s = norm_tail ints (prepared t)) \/
  (exists t, unwraps s t /\ empty_condition t /\ string_normalize ints s = NStr t).
Proof.
  assert (G : forall n s, (count 123 s <= n)%nat ->
    (exists t, unwraps s t /\ string_normalize ints s = norm_tail ints (prepared t)) \/
    (exists t, unwraps s t /\ empty_condition t /\ string_normalize ints s = NStr t)); [|apply (G (count 123 s)), le_n].
  clear s. induction n as [|n IH]; intros s Hn; rewrite (normalize_step s);
  (destruct (re_search text_wrap_re (prepared s)) as [st|] eqn:E1; [|destruct (re_search set_builder_re (prepared s)) as [st|] eqn:E2]).
  1, 4: apply text_wrap_sound in E1; pose proof (count_unwrap s _ (or_introl E1)); try lia.
  - destruct (IH (grp 2 st) ltac:(lia)) as [(t & Ht & Et)|(t & Ht & Ec & Et)]; [left|right]; exists t;
    (split; [eapply uw_step; [left; exact E1|exact Ht]|auto]).
  - apply set_builder_sound in E2. destruct (grp 2 st) as [|c r] eqn:Eg.
    + right. exists s. split; [constructor|]. split; [exact E2|reflexivity].
    + assert (U : unwrap1 s (c :: r)) by (right; split; [exact E2|discriminate]). pose proof (count_unwrap _ _ U). lia.
  - left. exists s. split; [constructor|reflexivity].
  - apply set_builder_sound in E2. destruct (grp 2 st) as [|c r] eqn:Eg.
    + right. exists s. split; [constructor|]. split; [exact E2|reflexivity].
    + assert (U : unwrap1 s (c :: r)) by (right; split; [exact E2|discriminate]). pose proof (count_unwrap _ _ U).
      destruct (IH (c :: r) ltac:(lia)) as [(t & Ht & Et)|(t & Ht & Ec & Et)]; [left|right]; exists t;
      (split; [eapply uw_step; [exact U|exact Ht]|auto]).
  - left. exists s. split; [constructor|reflexivity].
Qed.
End Rec.
