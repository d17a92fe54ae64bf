(** Any number of equations for a variable separated by commas, "and" or "or" (/repo/math_evaluation/core/latex_normalize.py:307-309). *)
From Coq Require Import String List NArith ZArith Bool Lia.
From Verif Require Import UnicodeTables PyStr PyStrTheory NumTheory Regex RegexTheory RegexFirst Float64 FloatTheory Constants
  Normalize NormTheory NormNum NormPct NormMixed NormTime NormShape NormUnits NormDollar NormAlg Arith Split SplitTheory Spec Monad MonadTheory Eval EvalTheory EvalTheory2 NormLeft NormIn NormCirc NormMillion NormOr NormOrText NormList.
Import ListNotations.
Local Open Scope N_scope.

(** ** Specification *)
Definition names : pystr := u "xyzkntpq".
(** a variable, an equals sign and a whole number *)
Definition equation (s : pystr) : Prop := exists v B, s = v :: 61 :: B /\ In v names /\ whole B.
Definition equations (l : list (sep * pystr)) : Prop := Forall (fun e => equation (snd e)) l.

Definition eq_cp : N -> bool := digits_and (u "-=xyzkntpq").
Definition eqs_cp : N -> bool := digits_and (u "-, =xyzkntpq").
Definition ejoined_cp : N -> bool := digits_and (u "-, orand=xyzkntpq").
Lemma eqs_inert : inert eqs_cp = true.
Proof. vm_compute. reflexivity. Qed.
Lemma equation_cp s : equation s -> forallb eq_cp s = true.
Proof.
  intros (v & B & -> & Hv & HB). cbn [forallb]. assert (forallb eq_cp B = true) as -> by (apply whole_int in HB; revert HB; apply digits_and_sub; vm_compute; reflexivity).
  cbn in Hv. repeat (destruct Hv as [<-|Hv]; [reflexivity|]). contradiction.
Qed.
Lemma equation_ne s : equation s -> s <> [].
Proof. intros (v & B & -> & _). discriminate. Qed.
Lemma eq_head P s : P <> [] -> forallb eq_cp P = true -> exists c r, P ++ s = c :: r /\ eq_cp c = true.
Proof.
  intros Hne HP. destruct P as [|c P]; [contradiction|]. exists c, (P ++ s). split; [reflexivity|]. cbn [forallb] in HP. apply andb_true_iff in HP. apply HP.
Qed.
Lemma equation_comma s : equation s -> forallb eqs_cp s = true.
Proof. intro H. apply equation_cp in H. revert H. apply digits_and_sub. vm_compute. reflexivity. Qed.
Lemma equation_joined s : equation s -> forallb ejoined_cp s = true.
Proof. intro H. apply equation_cp in H. revert H. apply digits_and_sub. vm_compute. reflexivity. Qed.
Lemma equation_lower s : equation s -> lower s = s.
Proof.
  intros (v & B & -> & Hv & HB). change (v :: 61 :: B) with ([v; 61] ++ B). rewrite FloatText.lower_app, (int_lower B) by apply whole_int, HB. f_equal.
  cbn in Hv. repeat (destruct Hv as [<-|Hv]; [reflexivity|]). contradiction.
Qed.
Lemma dash_equation s t pre : equation s -> exists pre', sub_go dash_re (fun _ cs => expand [PLit (u "-")] cs) O pre (s ++ t) = s ++ sub_go dash_re (fun _ cs => expand [PLit (u "-")] cs) O pre' t.
Proof.
  intros (v & B & -> & Hv & HB). destruct (dash_number B t (61 :: v :: pre) HB) as [pre' E]. exists pre'.
  change ((v :: 61 :: B) ++ t) with ([v; 61] ++ B ++ t). rewrite (sub_go_prefix (fun c => mem_cp (u "=xyzkntpq") c)).
  - cbn [rev app] in *. rewrite E. reflexivity.
  - vm_compute. reflexivity.
  - cbn in Hv. repeat (destruct Hv as [<-|Hv]; [reflexivity|]). contradiction.
Qed.
Lemma esep_joined s : forallb ejoined_cp (sep_text s) = true.
Proof. generalize (sep_joined s). apply digits_and_sub. vm_compute. reflexivity. Qed.
Lemma egap_comma s : forallb gap_cp s = true -> forallb eqs_cp s = true.
Proof. intro H. apply gap_comma in H. revert H. apply digits_and_sub. vm_compute. reflexivity. Qed.
Lemma elisted_joined l : equations l -> forallb ejoined_cp (listed sep_text l) = true.
Proof.
  induction l as [|[s B] l IH]; intro H; [reflexivity|]. inversion H; subst. rewrite listed_cons, !forallb_app, esep_joined, equation_joined, IH by assumption. reflexivity.
Qed.
Lemma elisted_comma l : equations l -> forallb eqs_cp (listed sep_comma l) = true.
Proof.
  induction l as [|[s B] l IH]; intro H; [reflexivity|]. inversion H; subst. rewrite listed_cons, !forallb_app, (egap_comma _ (sep_comma_gap s)), equation_comma, IH by assumption. reflexivity.
Qed.

(** ** A comma that no word follows is left alone *)
Lemma egap_no_tail k c s pre cs : eq_cp c = true -> nm sep_tail (MSt pre (spaces k ++ c :: s) cs).
Proof.
  intro Hc. unfold sep_tail, rseq at 1. cbn [fold_right]. apply nm_seq. intros st1 H1. apply in_star_chr in H1. destruct H1 as (w & s' & E & Hw & ->).
  assert (X : exists j, s' = spaces j ++ c :: s).
  { revert w E Hw. induction k as [|k IH]; intros w E Hw.
    - destruct w as [|h w]; [exists O; symmetry; exact E|]. injection E as -> _. cbn [forallb] in Hw. apply andb_true_iff in Hw. destruct Hw as [Hw _].
      change ((32 =? h) = true) in Hw. apply N.eqb_eq in Hw. subst. discriminate Hc.
    - destruct w as [|h w]; [exists (S k); symmetry; exact E|]. injection E as _ E. cbn [forallb] in Hw. apply andb_true_iff in Hw. destruct Hw as [_ Hw]. apply (IH w E Hw). }
  destruct X as [j ->]. apply nm_seq_l, nm_grp, nm_alt.
  - apply nm_grp, nm_seq_l, nm_rstr. destruct j as [|j]; [|reflexivity]. cbn [spaces repeat app]. change (u "\text{") with (92 :: u "text{"). cbn [starts_with].
    destruct (N.eqb_spec 92 c) as [<-|_]; [discriminate Hc|reflexivity].
  - destruct j as [|j].
    + apply nm_seq_l, nm_chr. change ((32 =? c) = false). apply N.eqb_neq. intros <-. discriminate Hc.
    + eapply nm_seq_r; [reflexivity|]. apply nm_seq_l, nm_grp. destruct j as [|j]; [|reflexivity]. cbn [spaces repeat app].
      apply nm_alt; apply nm_rstr.
      * change (u "and") with (97 :: u "nd"). cbn [starts_with]. destruct (N.eqb_spec 97 c) as [<-|_]; [discriminate Hc|reflexivity].
      * change (u "or") with (111 :: u "r"). cbn [starts_with]. destruct (N.eqb_spec 111 c) as [<-|_]; [discriminate Hc|reflexivity].
Qed.
Lemma espaces_kept f k c s pre : eq_cp c = true -> sub_go and_or_re f O pre (spaces k ++ c :: s) = spaces k ++ sub_go and_or_re f O (rev (spaces k) ++ pre) (c :: s).
Proof.
  intro Hc. revert pre. induction k as [|k IH]; intro pre; [reflexivity|].
  change (spaces (S k)) with (32 :: spaces k). cbn [app]. rewrite sub_go_none.
  - rewrite IH. cbn [rev]. rewrite <- app_assoc. reflexivity.
  - apply nm_match_at. change and_or_re with (RSeq (ROpt (lit 44)) sep_tail). apply (nm_seq_r _ _ _ (MSt pre (32 :: spaces k ++ c :: s) [])); [reflexivity|].
    apply (egap_no_tail (S k) c s), Hc.
Qed.
Lemma ecomma_kept f k c s pre : eq_cp c = true -> exists pre', sub_go and_or_re f O pre ((u "," ++ spaces k) ++ c :: s) = (u "," ++ spaces k) ++ sub_go and_or_re f O pre' (c :: s).
Proof.
  intro Hc. exists (rev (spaces k) ++ 44 :: pre). change ((u "," ++ spaces k) ++ c :: s) with (44 :: spaces k ++ c :: s). rewrite sub_go_none.
  - rewrite espaces_kept by exact Hc. reflexivity.
  - apply nm_match_at. change and_or_re with (RSeq (ROpt (lit 44)) sep_tail). apply nm_seq. intros st1 H1.
    cbn in H1. destruct H1 as [<-|[<-|[]]]; [apply egap_no_tail, Hc|]. reflexivity.
Qed.

(** ** Lists *)
Lemma elisted_words l : equations l -> forall pre, sub_go and_or_re put O pre (listed sep_text l) = listed sep_comma l.
Proof.
  induction l as [|[s B] l IH]; intros H pre; [reflexivity|]. inversion H as [|? ? HB Hl]; subst. cbn [snd] in HB. rewrite !listed_cons.
  assert (T : forall pre, sub_go and_or_re put O pre (B ++ listed sep_text l) = B ++ listed sep_comma l).
  { intro p. rewrite (sub_go_prefix eq_cp) by (reflexivity || apply equation_cp, HB). f_equal. apply IH, Hl. }
  destruct s as [k|c o].
  - destruct (eq_head B (listed sep_text l) (equation_ne B HB) (equation_cp B HB)) as (d & r & E & Hd).
    cbn [sep_text sep_comma]. rewrite E. destruct (ecomma_kept put k d r pre Hd) as [pre' ->]. rewrite <- E, T. reflexivity.
  - destruct (joined_word _ (B ++ listed sep_text l) pre (word_in c o)) as [cs Hm].
    rewrite (sub_go_match and_or_re _ _ _ _ _ Hm); [|reflexivity|destruct c; discriminate]. rewrite T. reflexivity.
Qed.
Lemma elisted_dash l : equations l -> forall pre, sub_go dash_re (fun _ cs => expand [PLit (u "-")] cs) O pre (listed sep_comma l) = listed sep_comma l.
Proof.
  induction l as [|[s B] l IH]; intros H pre; [reflexivity|]. inversion H as [|? ? HB Hl]; subst. cbn [snd] in HB. rewrite !listed_cons.
  rewrite (sub_go_prefix gap_cp) by (reflexivity || apply sep_comma_gap). f_equal.
  destruct (dash_equation B (listed sep_comma l) (rev (sep_comma s) ++ pre) HB) as [pre' ->]. rewrite IH by exact Hl. reflexivity.
Qed.
Lemma equation_filter B : equation B -> filter (fun x => negb (32 =? x)) B = B.
Proof. intro HB. rewrite <- replace_filter. apply replace_single_not. apply (digits_and_not_in (u "-=xyzkntpq")); [reflexivity|reflexivity|apply equation_cp, HB]. Qed.
Lemma elisted_filter l : equations l -> filter (fun x => negb (32 =? x)) (listed sep_comma l) = listed bare l.
Proof.
  induction l as [|[s B] l IH]; intro H; [reflexivity|]. inversion H as [|? ? HB Hl]; subst. cbn [snd] in HB.
  rewrite !listed_cons, !filter_app, sep_comma_filter, equation_filter, IH by assumption. reflexivity.
Qed.
Lemma elisted_lower l : equations l -> lower (listed bare l) = listed bare l.
Proof.
  induction l as [|[s B] l IH]; intro H; [reflexivity|]. inversion H as [|? ? HB Hl]; subst. cbn [snd] in HB.
  rewrite !listed_cons, !FloatText.lower_app, IH, (equation_lower B) by (assumption || apply equation_cp, HB). reflexivity.
Qed.
Lemma elast_int t A l : equation A -> equations l -> exists x c, A ++ listed t l = x ++ [c] /\ eq_cp c = true.
Proof.
  revert A. induction l as [|[s B] l IH]; intros A HA H.
  - destruct (exists_last (equation_ne A HA)) as (x & c & E). exists x, c. cbn. rewrite app_nil_r. split; [exact E|].
    pose proof (equation_cp A HA) as Q. rewrite forallb_forall in Q. apply Q. rewrite E. apply in_or_app. right. left. reflexivity.
  - inversion H as [|? ? HB Hl]; subst. destruct (IH B HB Hl) as (x & c & E & Hc). exists (A ++ t s ++ x), c. split; [|exact Hc].
    rewrite listed_cons, E, <- !app_assoc. reflexivity.
Qed.
Section Read.
Variable A : pystr.
Variable l : list (sep * pystr).
Hypothesis HA : equation A.
Hypothesis HL : equations l.
Hypothesis Hne : l <> [].
Lemma elist_cp : forallb eqs_cp (A ++ listed sep_comma l) = true.
Proof. rewrite forallb_app, (equation_comma A HA), elisted_comma by exact HL. reflexivity. Qed.
Lemma elist_not c : is_ascii_digit c = false -> mem_cp (u "-, =xyzkntpq") c = false -> ~ In c (A ++ listed sep_comma l).
Proof. intros H1 H2. apply (digits_and_not_in (u "-, =xyzkntpq")); [exact H1|exact H2|exact elist_cp]. Qed.
Lemma elist_further ints : further ints (A ++ listed sep_comma l) = (let x := A ++ listed bare l in if str_is_int x then ints x else x).
Proof.
  assert (S : starts_with [123] (A ++ listed sep_comma l) = false).
  { destruct (eq_head A (listed sep_comma l) (equation_ne A HA) (equation_cp A HA)) as (c & r & -> & Hc). cbn [starts_with]. destruct (N.eqb_spec 123 c) as [<-|_]; [discriminate Hc|reflexivity]. }
  assert (C : In 44 (A ++ listed sep_comma l)).
  { apply in_or_app; right. apply listed_has; [|exact Hne]. intros [k|c o]; [left; reflexivity|right; left; reflexivity]. }
  unfold further. rewrite S. cbn [andb]. cbv zeta. unfold norm_int. rewrite pair_no_float by exact C.
  change [bslash] with [92]. rewrite (contains_single_not 92) by (apply elist_not; reflexivity).
  assert (re_sub (RSeq (lit 45) (RStarG sp)) [PLit (u "-")] (A ++ listed sep_comma l) = A ++ listed sep_comma l) as ->.
  { unfold re_sub, re_sub_fun. destruct (dash_equation A (listed sep_comma l) [] HA) as [pre E]. unfold dash_re in E. rewrite E. f_equal. apply (elisted_dash l HL). }
  assert (inject_mixed (A ++ listed sep_comma l) = A ++ listed sep_comma l) as ->.
  { unfold inject_mixed. assert (re_sub mixed_re1 [PGrp 1; PLit (u "+"); PGrp 2] (A ++ listed sep_comma l) = A ++ listed sep_comma l) as -> by (apply (sub_id_lit 47); [reflexivity|apply elist_not; reflexivity]).
    apply (sub_id_lit 92); [reflexivity|apply elist_not; reflexivity]. }
  assert (replace [32] [] (A ++ listed sep_comma l) = A ++ listed bare l) as ->.
  { rewrite replace_filter, filter_app, equation_filter, elisted_filter by assumption. reflexivity. }
  assert (lower (A ++ listed bare l) = A ++ listed bare l) as ->; [|reflexivity].
  rewrite FloatText.lower_app, (equation_lower A), elisted_lower by (assumption || apply equation_cp, HA). reflexivity.
Qed.
Lemma elist_words : rewrite_words (A ++ listed sep_text l) = A ++ listed sep_comma l.
Proof.
  pose proof elist_cp as H.
  assert (J : forallb ejoined_cp (A ++ listed sep_text l) = true) by (rewrite forallb_app, equation_joined, elisted_joined by assumption; reflexivity).
  assert (E2 : re_sub and_or_re [PLit (u " , ")] (A ++ listed sep_text l) = A ++ listed sep_comma l).
  { unfold re_sub, re_sub_fun. rewrite (sub_go_prefix eq_cp) by (reflexivity || apply equation_cp, HA). f_equal. apply (elisted_words l HL). }
  pose proof (inert_words eqs_cp eqs_inert _ H) as W. unfold rewrite_words in W |- *.
  rewrite (alpha_replace ejoined_cp (u "\$")) by (reflexivity || exact J). rewrite (alpha_replace ejoined_cp (u "$")) by (reflexivity || exact J). rewrite E2.
  rewrite (alpha_replace eqs_cp (u "\$")), (alpha_replace eqs_cp (u "$")) in W by (reflexivity || exact H).
  assert (re_sub and_or_re [PLit (u " , ")] (A ++ listed sep_comma l) = A ++ listed sep_comma l) as E3 by (apply (alpha_sub_fun eqs_cp); [vm_compute; reflexivity|exact H]).
  rewrite E3 in W. exact W.
Qed.
Theorem elist_read ints : string_normalize ints (A ++ listed sep_text l) = NStr (let x := A ++ listed bare l in if str_is_int x then ints x else x).
Proof.
  pose proof elist_cp as H.
  assert (J : forallb ejoined_cp (A ++ listed sep_text l) = true) by (rewrite forallb_app, equation_joined, elisted_joined by assumption; reflexivity).
  assert (Hpr : prepared (A ++ listed sep_text l) = A ++ listed sep_text l).
  { unfold prepared. assert (strip_sp (A ++ listed sep_text l) = A ++ listed sep_text l) as ->.
    { apply strip_by_id.
      - destruct (eq_head A (listed sep_text l) (equation_ne A HA) (equation_cp A HA)) as (c & r & -> & Hc). apply N.eqb_neq. intros <-. discriminate Hc.
      - destruct (elast_int sep_text A l HA HL) as (x & c & -> & Hc). rewrite rev_app_distr. cbn [rev app]. apply N.eqb_neq. intros <-. discriminate Hc. }
    unfold str_matrix_normalize. rewrite (alpha_contains ejoined_cp (u "{cases}")), (alpha_contains ejoined_cp (u "{array}")) by (reflexivity || exact J).
    match goal with |- (if ?b then _ else _) = _ => destruct b end; [|reflexivity]. apply replace_absent. apply (alpha_contains ejoined_cp); [reflexivity|exact J]. }
  rewrite normalize_step, Hpr.
  rewrite (alpha_search ejoined_cp text_wrap_re), (alpha_search ejoined_cp set_builder_re) by (exact J || (vm_compute; reflexivity)).
  unfold norm_tail. cbv zeta.
  assert (del_tex_space (A ++ listed sep_text l) = A ++ listed sep_text l) as ->.
  { unfold del_tex_space. cbv zeta. rewrite (alpha_del ejoined_cp (rs "\:")) by ((vm_compute; reflexivity) || exact J). rewrite (alpha_del ejoined_cp (rs "\,")) by ((vm_compute; reflexivity) || exact J).
    rewrite (alpha_del ejoined_cp (rs "\;")) by ((vm_compute; reflexivity) || exact J). rewrite (alpha_del ejoined_cp (rs "\!")) by ((vm_compute; reflexivity) || exact J). apply (alpha_sub ejoined_cp); [vm_compute; reflexivity|exact J]. }
  rewrite (alpha_search ejoined_cp base_re) by (exact J || (vm_compute; reflexivity)).
  rewrite (alpha_contains ejoined_cp (u "%")) by (reflexivity || exact J). rewrite elist_words.
  rewrite (inert_time eqs_cp eqs_inert _ H), (inert_units eqs_cp eqs_inert _ H), (inert_circ eqs_cp eqs_inert _ H).
  rewrite elist_further. reflexivity.
Qed.
End Read.
Lemma equation_no_int A t : equation A -> str_is_int (A ++ t) = false.
Proof.
  intros (v & B & -> & Hv & _). unfold str_is_int. rewrite (bad_float 61); [reflexivity|bad|].
  unfold strip_commas, re_sub_fun. change ((v :: 61 :: B) ++ t) with ([v; 61] ++ B ++ t). rewrite sub_go_non_digits; [right; left; reflexivity|].
  constructor; [|constructor; [vm_compute; reflexivity|constructor]]. cbn in Hv. repeat (destruct Hv as [<-|Hv]; [vm_compute; reflexivity|]). contradiction.
Qed.
Theorem elist_plain ints A l : equation A -> equations l -> l <> [] ->
  string_normalize ints (A ++ listed sep_text l) = NStr (A ++ listed bare l).
Proof. intros HA HL Hne. rewrite elist_read by assumption. cbv zeta. rewrite equation_no_int by exact HA. reflexivity. Qed.
Lemma equations_same l l' : map snd l = map snd l' -> equations l -> equations l'.
Proof. unfold equations. intros E H. apply Forall_map. rewrite <- E. apply Forall_map, H. Qed.
Lemma elist_same ints A l l' : equation A -> equations l -> l <> [] -> map snd l = map snd l' ->
  string_normalize ints (A ++ listed sep_text l') = string_normalize ints (A ++ listed sep_text l).
Proof.
  intros HA HL Hne E. rewrite !elist_read; try assumption; [|apply (equations_same l); assumption|intros ->; destruct l; [contradiction|discriminate E]].
  rewrite (listed_bare l l' E). reflexivity.
Qed.
Theorem elist_accepted W n A l l' st : equation A -> equations l -> l <> [] -> map snd l = map snd l' ->
  is_equiv W (S n) (Some (A ++ listed sep_text l)) (Some (A ++ listed sep_text l')) st = (Ret true, st).
Proof.
  intros HA HL Hne E. pose proof (elist_read A l HA HL Hne (int_str W)) as R. eapply is_equiv_same_norm; [exact R|]. rewrite (elist_same _ A l l') by assumption. exact R.
Qed.
Theorem elist_verdict W n A l l' b st : equation A -> equations l -> l <> [] -> map snd l = map snd l' ->
  ~ equal_up_to_padding is_space (A ++ listed sep_text l) b -> ~ equal_up_to_padding is_space (A ++ listed sep_text l') b ->
  is_equiv W (S n) (Some (A ++ listed sep_text l)) (Some b) st = is_equiv W (S n) (Some (A ++ listed sep_text l')) (Some b) st.
Proof. intros HA HL Hne E. apply same_norm_verdict. symmetry. apply elist_same; assumption. Qed.
