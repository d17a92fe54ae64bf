(** Two whole numbers joined by "and" or "or" (/repo/math_evaluation/core/latex_normalize.py:307-309). *)
From Coq Require Import String List NArith ZArith Bool Lia.
From Verif Require Import UnicodeTables PyStr PyStrTheory NumTheory Regex RegexTheory RegexFirst Float64 FloatTheory Constants
  Normalize NormTheory NormNum NormPct NormMixed NormTime NormShape NormUnits NormDollar NormAlg Arith Split SplitTheory Spec Monad MonadTheory Eval EvalTheory EvalTheory2 NormIn NormCirc NormMillion.
Import ListNotations.
Local Open Scope N_scope.

(** ** Specification *)
Definition separators : list pystr := [u " or "; u " and "; u ", or "; u ", and "].
(** digits with an optional minus sign *)
Definition whole (s : pystr) : Prop := exists neg D, s = sign neg ++ D /\ numeral D.

Definition comma_cp : N -> bool := digits_and (u "-, ").
Definition joined_cp : N -> bool := digits_and (u "-, orand").
Lemma comma_inert : inert comma_cp = true.
Proof. vm_compute. reflexivity. Qed.
Lemma whole_int s : whole s -> forallb int_cp s = true.
Proof. intros (neg & D & -> & [F _]). rewrite forallb_app, (digits_and_digit [45] D F : forallb int_cp D = true). destruct neg; reflexivity. Qed.
Lemma whole_ne s : whole s -> s <> [].
Proof. intros (neg & D & -> & [_ N]) E. apply app_eq_nil in E. apply N, E. Qed.
Lemma whole_comma s : whole s -> forallb comma_cp s = true.
Proof. intro H. apply whole_int in H. revert H. apply digits_and_sub. vm_compute. reflexivity. Qed.
Lemma dash_number s t pre : whole s -> exists pre', sub_go dash_re (fun _ cs => expand [PLit (u "-")] cs) O pre (s ++ t) = s ++ sub_go dash_re (fun _ cs => expand [PLit (u "-")] cs) O pre' t.
Proof.
  intros (neg & D & -> & [F Ne]). rewrite <- app_assoc.
  assert (FD : forallb (digits_and []) D = true) by apply digits_and_digit, F.
  assert (Y : forall cs, expand [PLit (u "-")] cs = [45]) by reflexivity.
  destruct neg; cbn [sign app].
  - change (45 :: D ++ t) with ([45] ++ (D ++ t)). rewrite (sub_go_match dash_re _ pre [45] (D ++ t) (MSt (45 :: pre) (D ++ t) [])).
    + cbn [rev app caps]. rewrite Y. rewrite (sub_go_prefix (digits_and [])) by (reflexivity || exact FD). eexists. reflexivity.
    + apply fm_match_at. eapply fm_seq; [apply fm_chr; reflexivity|]. apply fm_run_nil. destruct D as [|d D]; [congruence|]. cbn [app cls_in sp]. apply N.eqb_neq. intros <-. inversion F as [|? ? [G _]]. revert G. vm_compute. congruence.
    + reflexivity.
    + discriminate.
  - rewrite (sub_go_prefix (digits_and [])) by (reflexivity || exact FD). eexists. reflexivity.
Qed.
Lemma star_one k c pre s cs : cls_in k c = true -> match s with [] => True | d :: _ => cls_in k d = false end ->
  matches (RStarG (RChr k)) (MSt pre (c :: s) cs) = [MSt (c :: pre) s cs; MSt pre (c :: s) cs].
Proof.
  intros Hc Hs. unfold RStarG. cbn [matches after length star_matches before caps]. rewrite Hc. cbn [filter length]. cbn [after]. rewrite (proj2 (Nat.ltb_lt (length s) (S (length s)))) by lia. cbn [flat_map].
  rewrite star_greedy_stop; [reflexivity|]. cbn [matches after]. destruct s as [|d s]; [reflexivity|]. rewrite Hs. reflexivity.
Qed.
Lemma fm_seq_back a b st st0 st1 st2 : matches a st = [st1; st0] -> nm b st1 -> fm b st0 st2 -> fm (RSeq a b) st st2.
Proof. unfold fm, nm. intros E H1 H2. cbn [matches]. rewrite E. cbn [flat_map]. rewrite H1. cbn [app]. apply hd_app, H2. Qed.
Lemma joined_word w B pre : In w separators -> exists cs, match_at and_or_re pre (w ++ B) = Some (MSt (rev w ++ pre) B cs).
Proof.
  intro Hw.
  assert (G : forall K pre, K = u "or" \/ K = u "and" -> exists cs, fm (rseq [RStarG sp; RGrp 1 (RAlt (RGrp 2 (rseq [rs "\text{"; RStarG sp; RGrp 3 andor; RStarG sp; lit 125])) (rseq [sp; RGrp 4 andor; sp]))])
              (MSt pre (32 :: K ++ 32 :: B) []) (MSt (32 :: rev K ++ 32 :: pre) B cs)).
  { intros K pre0 HK. eexists. unfold rseq at 1. eapply fm_seq_back.
    - apply star_one; [reflexivity|]. destruct HK as [-> | ->]; reflexivity.
    - destruct HK as [-> | ->]; reflexivity.
    - apply fm_seq with (MSt (32 :: rev K ++ 32 :: pre0) B [(1%nat, 32 :: K ++ [32]); (4%nat, K)]); [|apply fm_eps].
      assert (E : 32 :: K ++ 32 :: B = (32 :: K ++ [32]) ++ B) by (cbn [app]; rewrite <- app_assoc; reflexivity). rewrite E. apply fm_grp. rewrite <- E.
      apply fm_alt_r; [reflexivity|]. eapply fm_seq; [apply fm_chr; reflexivity|]. eapply fm_seq; [apply (fm_grp 4 andor (32 :: pre0) K (32 :: B) [] (rev K ++ 32 :: pre0) [])|].
      + destruct HK as [-> | ->]; reflexivity.
      + eapply fm_seq; [apply fm_chr; reflexivity|apply fm_eps]. }
  destruct Hw as [<-|[<-|[<-|[<-|[]]]]].
  - destruct (G (u "or") pre (or_introl eq_refl)) as [cs H]. exists cs. apply fm_match_at. unfold and_or_re. eapply fm_seq; [apply fm_opt_none; reflexivity|exact H].
  - destruct (G (u "and") pre (or_intror eq_refl)) as [cs H]. exists cs. apply fm_match_at. unfold and_or_re. eapply fm_seq; [apply fm_opt_none; reflexivity|exact H].
  - destruct (G (u "or") (44 :: pre) (or_introl eq_refl)) as [cs H]. exists cs. apply fm_match_at. unfold and_or_re. eapply fm_seq; [apply fm_opt, fm_chr; reflexivity|exact H].
  - destruct (G (u "and") (44 :: pre) (or_intror eq_refl)) as [cs H]. exists cs. apply fm_match_at. unfold and_or_re. eapply fm_seq; [apply fm_opt, fm_chr; reflexivity|exact H].
Qed.
Section Pair.
Variable A B : pystr.
Hypothesis HA : whole A.
Hypothesis HB : whole B.
Definition comma_form (p : pystr) : Prop := p = u "," \/ p = u " , ".
Lemma pair_cp p : comma_form p -> forallb comma_cp (A ++ p ++ B) = true.
Proof. intro Hp. rewrite !forallb_app, (whole_comma A HA), (whole_comma B HB). destruct Hp as [-> | ->]; reflexivity. Qed.
Lemma pair_comma p : comma_form p -> In 44 (A ++ p ++ B).
Proof. intro Hp. apply in_or_app. right. apply in_or_app. left. destruct Hp as [-> | ->]; cbn; tauto. Qed.
Lemma pair_no_float s : In 44 s -> py_float s = None.
Proof. intro H. destruct (py_float s) eqn:E; [|reflexivity]. exfalso. apply (float_chars s _ 44 E); [cbn; tauto|exact H]. Qed.
Lemma pair_not c p : comma_form p -> is_ascii_digit c = false -> mem_cp (u "-, ") c = false -> ~ In c (A ++ p ++ B).
Proof. intros Hp H1 H2. apply (digits_and_not_in (u "-, ")); [exact H1|exact H2|apply pair_cp, Hp]. Qed.
Lemma pair_further ints p : comma_form p -> further ints (A ++ p ++ B) = (let x := A ++ u "," ++ B in if str_is_int x then ints x else x).
Proof.
  intro Hp. assert (S : starts_with [123] (A ++ p ++ B) = false).
  { destruct (int_head A (p ++ B) (whole_ne A HA) (whole_int A HA)) as (c & r & -> & Hc). cbn [starts_with]. destruct (N.eqb_spec 123 c) as [<-|_]; [discriminate Hc|reflexivity]. }
  unfold further. rewrite S. cbn [andb]. cbv zeta. unfold norm_int. rewrite pair_no_float by apply pair_comma, Hp.
  change [bslash] with [92]. rewrite (contains_single_not 92) by (apply pair_not; (exact Hp || reflexivity)).
  assert (re_sub (RSeq (lit 45) (RStarG sp)) [PLit (u "-")] (A ++ p ++ B) = A ++ p ++ B) as ->.
  { unfold re_sub, re_sub_fun. destruct (dash_number A (p ++ B) [] HA) as [pre E]. unfold dash_re in E. rewrite E. f_equal. clear E.
    rewrite (sub_go_prefix (digits_and (u ", "))) by (reflexivity || (destruct Hp as [-> | ->]; reflexivity)). f_equal.
    rewrite <- (app_nil_r B) at 1. destruct (dash_number B [] (rev p ++ pre) HB) as [pre' E]. unfold dash_re in E. rewrite E. apply app_nil_r. }
  assert (inject_mixed (A ++ p ++ B) = A ++ p ++ B) as ->.
  { unfold inject_mixed. assert (re_sub mixed_re1 [PGrp 1; PLit (u "+"); PGrp 2] (A ++ p ++ B) = A ++ p ++ B) as -> by (apply (sub_id_lit 47); [reflexivity|apply pair_not; (exact Hp || reflexivity)]).
    apply (sub_id_lit 92); [reflexivity|apply pair_not; (exact Hp || reflexivity)]. }
  assert (replace [32] [] (A ++ p ++ B) = A ++ u "," ++ B) as ->.
  { rewrite (replace_prefix int_cp [32]) by (reflexivity || apply whole_int, HA). f_equal.
    assert (X : replace [32] [] B = B) by (apply replace_single_not; apply (digits_and_not_in [45]); [reflexivity|reflexivity|apply whole_int, HB]).
    destruct Hp as [-> | ->].
    - change (u "," ++ B) with ([44] ++ B). rewrite (replace_prefix (digits_and [44]) [32]) by reflexivity. rewrite X. reflexivity.
    - rewrite replace_filter in X |- *. change (u "," ++ filter (fun x => negb (32 =? x)) B = u "," ++ B). rewrite X. reflexivity. }
  assert (lower (A ++ u "," ++ B) = A ++ u "," ++ B) as ->; [|reflexivity].
  rewrite !FloatText.lower_app, (int_lower A), (int_lower B) by (apply whole_int; assumption). reflexivity.
Qed.
Lemma comma_read ints : string_normalize ints (A ++ u "," ++ B) = NStr (let x := A ++ u "," ++ B in if str_is_int x then ints x else x).
Proof.
  pose proof (pair_cp (u ",") (or_introl eq_refl)) as H. rewrite (inert_normalize comma_cp comma_inert _ H).
  - rewrite pair_further by (left; reflexivity). reflexivity.
  - apply (alpha_contains comma_cp); [reflexivity|exact H].
  - apply strip_sp_id. intro X. apply in_app_or in X.
    assert (NA : ~ In 32 A) by (apply (digits_and_not_in [45]); [reflexivity|reflexivity|apply whole_int, HA]).
    assert (NB : ~ In 32 B) by (apply (digits_and_not_in [45]); [reflexivity|reflexivity|apply whole_int, HB]).
    destruct X as [X|X]; [contradiction|]. cbn in X. destruct X as [X|X]; [discriminate X|contradiction].
Qed.
Lemma separated w : In w separators -> rewrite_words (A ++ w ++ B) = A ++ u " , " ++ B.
Proof.
  intro Hw. pose proof (pair_cp (u " , ") (or_intror eq_refl)) as H.
  assert (E1 : replace (u "\$") (u "$") (A ++ w ++ B) = A ++ w ++ B /\ replace (u "$") [] (A ++ w ++ B) = A ++ w ++ B).
  { assert (J : forallb joined_cp (A ++ w ++ B) = true).
    { rewrite !forallb_app. assert (forall s, whole s -> forallb joined_cp s = true) as K by (intros s Hs; apply whole_int in Hs; revert Hs; apply digits_and_sub; vm_compute; reflexivity).
      rewrite (K A HA), (K B HB). destruct Hw as [<-|[<-|[<-|[<-|[]]]]]; reflexivity. }
    split; apply (alpha_replace joined_cp); (reflexivity || exact J). }
  assert (E2 : re_sub and_or_re [PLit (u " , ")] (A ++ w ++ B) = A ++ u " , " ++ B).
  { unfold re_sub, re_sub_fun. assert (X : forall cs, expand [PLit (u " , ")] cs = u " , ") by reflexivity.
    rewrite (sub_go_prefix int_cp) by (reflexivity || apply whole_int, HA). f_equal.
    destruct (joined_word w B (rev A ++ []) Hw) as [cs Hm]. rewrite (sub_go_match and_or_re _ _ w B _ Hm); [|reflexivity|destruct Hw as [<-|[<-|[<-|[<-|[]]]]]; discriminate].
    cbn [caps]. rewrite X. f_equal. rewrite <- (app_nil_r B) at 1. rewrite (sub_go_prefix int_cp) by (reflexivity || apply whole_int, HB). cbn [sub_go]. apply app_nil_r. }
  pose proof (inert_words comma_cp comma_inert _ H) as W. unfold rewrite_words in W |- *. destruct E1 as [-> ->]. rewrite E2.
  rewrite (alpha_replace comma_cp (u "\$")), (alpha_replace comma_cp (u "$")) in W by (reflexivity || exact H).
  assert (re_sub and_or_re [PLit (u " , ")] (A ++ u " , " ++ B) = A ++ u " , " ++ B) as E3 by (apply (alpha_sub_fun comma_cp); [vm_compute; reflexivity|exact H]).
  rewrite E3 in W. exact W.
Qed.
Theorem separator_read ints w : In w separators -> string_normalize ints (A ++ w ++ B) = string_normalize ints (A ++ u "," ++ B).
Proof.
  intro Hw. rewrite comma_read.
  assert (J : forallb joined_cp (A ++ w ++ B) = true).
  { rewrite !forallb_app. assert (forall s, whole s -> forallb joined_cp s = true) as K by (intros s Hs; apply whole_int in Hs; revert Hs; apply digits_and_sub; vm_compute; reflexivity).
    rewrite (K A HA), (K B HB). destruct Hw as [<-|[<-|[<-|[<-|[]]]]]; reflexivity. }
  pose proof (pair_cp (u " , ") (or_intror eq_refl)) as H.
  assert (Hpr : prepared (A ++ w ++ B) = A ++ w ++ B).
  { unfold prepared. assert (strip_sp (A ++ w ++ B) = A ++ w ++ B) as ->.
    { apply strip_by_id.
      - destruct (int_head A (w ++ B) (whole_ne A HA) (whole_int A HA)) as (c & r & -> & Hc). apply N.eqb_neq. intros <-. discriminate Hc.
      - rewrite !rev_app_distr, <- app_assoc. assert (R : forallb int_cp (rev B) = true) by (apply forallb_forall; intros c Hc; apply in_rev in Hc; pose proof (whole_int B HB) as Q; rewrite forallb_forall in Q; apply Q, Hc).
        destruct (int_head (rev B) (rev w ++ rev A)) as (c & r & -> & Hc); [intro E; apply (whole_ne B HB); apply (f_equal (@rev N)) in E; rewrite rev_involutive in E; exact E|exact R|].
        apply N.eqb_neq. intros <-. discriminate Hc. }
    unfold str_matrix_normalize. rewrite (alpha_contains joined_cp (u "{cases}")), (alpha_contains joined_cp (u "{array}")) by (reflexivity || exact J).
    match goal with |- (if ?b then _ else _) = _ => destruct b end; [|reflexivity]. apply replace_absent. apply (alpha_contains joined_cp); [reflexivity|exact J]. }
  rewrite normalize_step, Hpr.
  rewrite (alpha_search joined_cp text_wrap_re), (alpha_search joined_cp set_builder_re) by (exact J || (vm_compute; reflexivity)).
  unfold norm_tail. cbv zeta.
  assert (del_tex_space (A ++ w ++ B) = A ++ w ++ B) as ->.
  { unfold del_tex_space. cbv zeta. rewrite (alpha_del joined_cp (rs "\:")) by ((vm_compute; reflexivity) || exact J). rewrite (alpha_del joined_cp (rs "\,")) by ((vm_compute; reflexivity) || exact J).
    rewrite (alpha_del joined_cp (rs "\;")) by ((vm_compute; reflexivity) || exact J). rewrite (alpha_del joined_cp (rs "\!")) by ((vm_compute; reflexivity) || exact J). apply (alpha_sub joined_cp); [vm_compute; reflexivity|exact J]. }
  rewrite (alpha_search joined_cp base_re) by (exact J || (vm_compute; reflexivity)).
  rewrite (alpha_contains joined_cp (u "%")) by (reflexivity || exact J). rewrite separated by exact Hw.
  rewrite (inert_time comma_cp comma_inert _ H), (inert_units comma_cp comma_inert _ H), (inert_circ comma_cp comma_inert _ H).
  rewrite pair_further by (right; reflexivity). reflexivity.
Qed.
End Pair.

(** No thousands separator: the pair of numbers *)
Theorem separator_pair ints A B w : whole A -> whole B -> In w separators -> ~ has_thousands (A ++ u "," ++ B) ->
  string_normalize ints (A ++ w ++ B) = NStr (A ++ u "," ++ B).
Proof.
  intros HA HB Hw Hn. rewrite (separator_read A B HA HB ints w Hw), (comma_read A B HA HB). cbv zeta. unfold str_is_int. rewrite strip_commas_id by exact Hn.
  rewrite pair_no_float by (apply in_or_app; right; left; reflexivity). reflexivity.
Qed.
Theorem separator_accepted W n A B w w' st : whole A -> whole B -> In w separators -> In w' (u "," :: separators) ->
  is_equiv W (S n) (Some (A ++ w ++ B)) (Some (A ++ w' ++ B)) st = (Ret true, st) /\
  is_equiv W (S n) (Some (A ++ w' ++ B)) (Some (A ++ w ++ B)) st = (Ret true, st).
Proof.
  intros HA HB Hw Hw'. pose proof (comma_read A B HA HB (int_str W)) as C. pose proof (separator_read A B HA HB (int_str W) w Hw) as N. rewrite C in N.
  assert (N' : string_normalize (int_str W) (A ++ w' ++ B) = NStr (let x := A ++ u "," ++ B in if str_is_int x then int_str W x else x)).
  { destruct Hw' as [<-|Hw']; [exact C|]. rewrite (separator_read A B HA HB (int_str W) w' Hw'). exact C. }
  split; eapply is_equiv_same_norm; eassumption.
Qed.
(** Three digits after at most three: one number *)
Section Merged.
Variable z : Z.
Variable A B : pystr.
Hypothesis Hz : (- 2 ^ 53 <= z <= 2 ^ 53)%Z.
Hypothesis HA : Forall ascii_digit A.
Hypothesis LA : (1 <= length A <= 3)%nat.
Hypothesis HB : Forall ascii_digit B.
Hypothesis LB : length B = 3%nat.
Hypothesis E : dec_Z z = A ++ B.
Lemma digits_whole D : Forall ascii_digit D -> (1 <= length D)%nat -> whole D.
Proof. intros F L. exists false, D. split; [reflexivity|]. split; [exact F|]. intros ->. cbn in L. lia. Qed.
Lemma merged_int : str_is_int (A ++ u "," ++ B) = true.
Proof.
  assert (D : forall D, Forall ascii_digit D -> digits D).
  { intros D F. eapply Forall_impl; [|exact F]. intros c Hc. ten c Hc; reflexivity. }
  pose proof (strip_commas_grouped [] A [([], B)] []) as G. cbn [groups_text groups_plain flat_map app fst snd] in G. rewrite !app_nil_r in G.
  unfold str_is_int. change (A ++ u "," ++ B) with (A ++ 44 :: B). rewrite G.
  - rewrite <- E. destruct (int_exact z Hz) as (f & -> & Hi & _). exact Hi.
  - constructor.
  - split; [exact LA|apply D, HA].
  - discriminate.
  - constructor; [|constructor]. split; [left; reflexivity|]. split; [exact LB|apply D, HB].
  - constructor.
  - exact I.
Qed.
Theorem merged_read ints w : In w separators -> string_normalize ints (A ++ w ++ B) = NStr (ints (A ++ u "," ++ B)).
Proof.
  intro Hw. assert (WA : whole A) by (apply digits_whole; [exact HA|apply LA]). assert (WB : whole B) by (apply digits_whole; [exact HB|lia]).
  rewrite (separator_read A B WA WB ints w Hw), (comma_read A B WA WB). cbv zeta. rewrite merged_int. reflexivity.
Qed.
Theorem merged_accepted W n w st : In w separators -> int_str W (A ++ u "," ++ B) = int_str W (dec_Z z) ->
  is_equiv W (S n) (Some (A ++ w ++ B)) (Some (dec_Z z)) st = (Ret true, st).
Proof.
  intros Hw Hi. apply (is_equiv_same_norm W n _ _ (int_str W (dec_Z z))).
  - rewrite merged_read by exact Hw. rewrite Hi. reflexivity.
  - apply normalize_int, Hz.
Qed.
End Merged.
Lemma thousands_long s : has_thousands s -> (5 <= length s)%nat.
Proof. intros (a & d1 & sep & d2 & d3 & d4 & b & -> & _ & _). rewrite app_length. cbn [length]. rewrite app_length. cbn [length app]. lia. Qed.
(** The verdict against anything else is that on the two numbers with a comma *)
Lemma same_norm_verdict W n a a' b st : string_normalize (int_str W) a = string_normalize (int_str W) a' ->
  ~ equal_up_to_padding is_space a b -> ~ equal_up_to_padding is_space a' b ->
  is_equiv W (S n) (Some a) (Some b) st = is_equiv W (S n) (Some a') (Some b) st.
Proof.
  intros E H H'. rewrite <- padding_iff in H, H'. cbn [is_equiv is_equiv_str]. unfold is_equiv_body. cbv zeta.
  destruct (str_eqb (strip a) (strip b)) eqn:X; [apply str_eqb_eq in X; contradiction|]. destruct (str_eqb (strip a') (strip b)) eqn:X'; [apply str_eqb_eq in X'; contradiction|].
  rewrite E. reflexivity.
Qed.
Theorem separator_verdict W n A B w b st : whole A -> whole B -> In w separators ->
  ~ equal_up_to_padding is_space (A ++ w ++ B) b -> ~ equal_up_to_padding is_space (A ++ u "," ++ B) b ->
  is_equiv W (S n) (Some (A ++ w ++ B)) (Some b) st = is_equiv W (S n) (Some (A ++ u "," ++ B)) (Some b) st.
Proof. intros HA HB Hw. apply same_norm_verdict, separator_read; assumption. Qed.
