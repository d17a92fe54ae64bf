(** Any number of whole numbers separated by commas, "and" or "or" (/repo/math_evaluation/core/latex_normalize.py:307-309). *)
From Coq Require Import String List NArith ZArith Bool Lia.
From Verif Require Import UnicodeTables PyStr PyStrTheory NumTheory Regex RegexTheory RegexFirst Float64 FloatTheory Constants
  Normalize NormTheory NormNum NormPct NormMixed NormTime NormShape NormUnits NormDollar NormAlg Arith Split SplitTheory Spec Monad MonadTheory Eval EvalTheory EvalTheory2 NormLeft NormIn NormCirc NormMillion NormOr NormOrText.
Import ListNotations.
Local Open Scope N_scope.

(** ** Specification *)
(** a comma and spaces, or one of the four separators of C131 *)
Inductive sep := Comma (k : nat) | Word (comma : bool) (w_or : bool).
Definition sep_text (s : sep) : pystr :=
  match s with
  | Comma k => u "," ++ spaces k
  | Word c o => (if c then u "," else []) ++ u " " ++ (if o then u "or" else u "and") ++ u " "
  end.
Definition bare (s : sep) : pystr := u ",".
(** the first number, then the others, each after its separator *)
Definition listed (t : sep -> pystr) (l : list (sep * pystr)) : pystr := concat (map (fun e => t (fst e) ++ snd e) l).
Definition wholes (l : list (sep * pystr)) : Prop := Forall (fun e => whole (snd e)) l.

(** ** What each separator becomes *)
Definition sep_comma (s : sep) : pystr := match s with Comma k => u "," ++ spaces k | Word _ _ => u " , " end.
Lemma sep_comma_gap s : forallb gap_cp (sep_comma s) = true.
Proof. destruct s as [k|c o]; [|reflexivity]. cbn [sep_comma]. rewrite forallb_app, spaces_gap. reflexivity. Qed.
Lemma sep_comma_filter s : filter (fun x => negb (32 =? x)) (sep_comma s) = u ",".
Proof. destruct s as [k|c o]; [|reflexivity]. cbn [sep_comma]. rewrite filter_app, filter_spaces. reflexivity. Qed.
Lemma word_in c o : In (sep_text (Word c o)) separators.
Proof. destruct c, o; vm_compute; tauto. Qed.
Lemma sep_joined s : forallb joined_cp (sep_text s) = true.
Proof.
  destruct s as [k|c o]; [|destruct c, o; reflexivity]. cbn [sep_text]. rewrite forallb_app. cbn.
  apply forallb_forall. intros x Hx. apply repeat_spec in Hx. subst. reflexivity.
Qed.
Lemma listed_cons t s B l : listed t ((s, B) :: l) = t s ++ B ++ listed t l.
Proof. unfold listed. cbn [map concat fst snd]. symmetry. apply app_assoc. Qed.
Lemma wholes_joined s : whole s -> forallb joined_cp s = true.
Proof. intro Hs; apply whole_int in Hs; revert Hs; apply digits_and_sub; vm_compute; reflexivity. Qed.
Lemma listed_joined l : wholes l -> forallb joined_cp (listed sep_text l) = true.
Proof.
  induction l as [|[s B] l IH]; intro H; [reflexivity|]. inversion H; subst. rewrite listed_cons, !forallb_app, sep_joined, wholes_joined, IH by assumption. reflexivity.
Qed.
Lemma listed_comma l : wholes l -> forallb comma_cp (listed sep_comma l) = true.
Proof.
  induction l as [|[s B] l IH]; intro H; [reflexivity|]. inversion H; subst. rewrite listed_cons, !forallb_app, (gap_comma _ (sep_comma_gap s)), whole_comma, IH by assumption. reflexivity.
Qed.

(** ** A comma that no word follows is left alone *)
Definition sep_tail : regex := rseq [RStarG sp; RGrp 1 (RAlt (RGrp 2 (rseq [rs "\text{"; RStarG sp; RGrp 3 andor; RStarG sp; lit 125])) (rseq [sp; RGrp 4 andor; sp]))].
Lemma gap_no_tail k c s pre cs : int_cp c = true -> nm sep_tail (MSt pre (spaces k ++ c :: s) cs).
Proof.
  intro Hc. unfold sep_tail, rseq at 1. cbn [fold_right]. apply nm_seq. intros st1 H1. apply in_star_chr in H1. destruct H1 as (w & s' & E & Hw & ->).
  assert (X : exists j, s' = spaces j ++ c :: s).
  { revert w E Hw. induction k as [|k IH]; intros w E Hw.
    - destruct w as [|h w]; [exists O; symmetry; exact E|]. injection E as -> _. cbn [forallb] in Hw. apply andb_true_iff in Hw. destruct Hw as [Hw _].
      change ((32 =? h) = true) in Hw. apply N.eqb_eq in Hw. subst. discriminate Hc.
    - destruct w as [|h w]; [exists (S k); symmetry; exact E|]. injection E as _ E. cbn [forallb] in Hw. apply andb_true_iff in Hw. destruct Hw as [_ Hw]. apply (IH w E Hw). }
  destruct X as [j ->]. apply nm_seq_l, nm_grp, nm_alt.
  - apply nm_grp, nm_seq_l, nm_rstr. destruct j as [|j]; [|reflexivity]. cbn [spaces repeat app]. change (u "\text{") with (92 :: u "text{"). cbn [starts_with].
    destruct (N.eqb_spec 92 c) as [<-|_]; [discriminate Hc|reflexivity].
  - destruct j as [|j].
    + apply nm_seq_l, nm_chr. change ((32 =? c) = false). apply N.eqb_neq. intros <-. discriminate Hc.
    + eapply nm_seq_r; [reflexivity|]. apply nm_seq_l, nm_grp. destruct j as [|j]; [|reflexivity]. cbn [spaces repeat app].
      apply nm_alt; apply nm_rstr.
      * change (u "and") with (97 :: u "nd"). cbn [starts_with]. destruct (N.eqb_spec 97 c) as [<-|_]; [discriminate Hc|reflexivity].
      * change (u "or") with (111 :: u "r"). cbn [starts_with]. destruct (N.eqb_spec 111 c) as [<-|_]; [discriminate Hc|reflexivity].
Qed.
Lemma spaces_kept f k c s pre : int_cp c = true -> sub_go and_or_re f O pre (spaces k ++ c :: s) = spaces k ++ sub_go and_or_re f O (rev (spaces k) ++ pre) (c :: s).
Proof.
  intro Hc. revert pre. induction k as [|k IH]; intro pre; [reflexivity|].
  change (spaces (S k)) with (32 :: spaces k). cbn [app]. rewrite sub_go_none.
  - rewrite IH. cbn [rev]. rewrite <- app_assoc. reflexivity.
  - apply nm_match_at. change and_or_re with (RSeq (ROpt (lit 44)) sep_tail). apply (nm_seq_r _ _ _ (MSt pre (32 :: spaces k ++ c :: s) [])); [reflexivity|].
    apply (gap_no_tail (S k) c s), Hc.
Qed.
Lemma comma_kept f k c s pre : int_cp c = true -> exists pre', sub_go and_or_re f O pre ((u "," ++ spaces k) ++ c :: s) = (u "," ++ spaces k) ++ sub_go and_or_re f O pre' (c :: s).
Proof.
  intro Hc. exists (rev (spaces k) ++ 44 :: pre). change ((u "," ++ spaces k) ++ c :: s) with (44 :: spaces k ++ c :: s). rewrite sub_go_none.
  - rewrite spaces_kept by exact Hc. reflexivity.
  - apply nm_match_at. change and_or_re with (RSeq (ROpt (lit 44)) sep_tail). apply nm_seq. intros st1 H1.
    cbn in H1. destruct H1 as [<-|[<-|[]]]; [apply gap_no_tail, Hc|]. reflexivity.
Qed.

(** ** Lists *)
Definition put (_ : pystr) (cs : list (nat * pystr)) : pystr := expand [PLit (u " , ")] cs.
Lemma listed_words l : wholes l -> forall pre, sub_go and_or_re put O pre (listed sep_text l) = listed sep_comma l.
Proof.
  induction l as [|[s B] l IH]; intros H pre; [reflexivity|]. inversion H as [|? ? HB Hl]; subst. cbn [snd] in HB. rewrite !listed_cons.
  assert (T : forall pre, sub_go and_or_re put O pre (B ++ listed sep_text l) = B ++ listed sep_comma l).
  { intro p. rewrite (sub_go_prefix int_cp) by (reflexivity || apply whole_int, HB). f_equal. apply IH, Hl. }
  destruct s as [k|c o].
  - destruct (int_head B (listed sep_text l) (whole_ne B HB) (whole_int B HB)) as (d & r & E & Hd).
    cbn [sep_text sep_comma]. rewrite E. destruct (comma_kept put k d r pre Hd) as [pre' ->]. rewrite <- E, T. reflexivity.
  - destruct (joined_word _ (B ++ listed sep_text l) pre (word_in c o)) as [cs Hm].
    rewrite (sub_go_match and_or_re _ _ _ _ _ Hm); [|reflexivity|destruct c; discriminate]. rewrite T. reflexivity.
Qed.
Lemma listed_dash l : wholes l -> forall pre, sub_go dash_re (fun _ cs => expand [PLit (u "-")] cs) O pre (listed sep_comma l) = listed sep_comma l.
Proof.
  induction l as [|[s B] l IH]; intros H pre; [reflexivity|]. inversion H as [|? ? HB Hl]; subst. cbn [snd] in HB. rewrite !listed_cons.
  rewrite (sub_go_prefix gap_cp) by (reflexivity || apply sep_comma_gap). f_equal.
  destruct (dash_number B (listed sep_comma l) (rev (sep_comma s) ++ pre) HB) as [pre' ->]. rewrite IH by exact Hl. reflexivity.
Qed.
Lemma whole_filter B : whole B -> filter (fun x => negb (32 =? x)) B = B.
Proof. intro HB. rewrite <- replace_filter. apply replace_single_not. apply (digits_and_not_in [45]); [reflexivity|reflexivity|apply whole_int, HB]. Qed.
Lemma listed_filter l : wholes l -> filter (fun x => negb (32 =? x)) (listed sep_comma l) = listed bare l.
Proof.
  induction l as [|[s B] l IH]; intro H; [reflexivity|]. inversion H as [|? ? HB Hl]; subst. cbn [snd] in HB.
  rewrite !listed_cons, !filter_app, sep_comma_filter, whole_filter, IH by assumption. reflexivity.
Qed.
Lemma listed_lower l : wholes l -> lower (listed bare l) = listed bare l.
Proof.
  induction l as [|[s B] l IH]; intro H; [reflexivity|]. inversion H as [|? ? HB Hl]; subst. cbn [snd] in HB.
  rewrite !listed_cons, !FloatText.lower_app, IH, (int_lower B) by (assumption || apply whole_int, HB). reflexivity.
Qed.
Lemma listed_has t l : (forall s, In 44 (t s)) -> l <> [] -> In 44 (listed t l).
Proof. intros Ht Hl. destruct l as [|[s B] l]; [contradiction|]. rewrite listed_cons. apply in_or_app. left. apply Ht. Qed.
Lemma last_int t A l : whole A -> wholes l -> exists x c, A ++ listed t l = x ++ [c] /\ int_cp c = true.
Proof.
  revert A. induction l as [|[s B] l IH]; intros A HA H.
  - destruct (exists_last (whole_ne A HA)) as (x & c & E). exists x, c. cbn. rewrite app_nil_r. split; [exact E|].
    pose proof (whole_int A HA) as Q. rewrite forallb_forall in Q. apply Q. rewrite E. apply in_or_app. right. left. reflexivity.
  - inversion H as [|? ? HB Hl]; subst. destruct (IH B HB Hl) as (x & c & E & Hc). exists (A ++ t s ++ x), c. split; [|exact Hc].
    rewrite listed_cons, E, <- !app_assoc. reflexivity.
Qed.
Section Read.
Variable A : pystr.
Variable l : list (sep * pystr).
Hypothesis HA : whole A.
Hypothesis HL : wholes l.
Hypothesis Hne : l <> [].
Lemma list_cp : forallb comma_cp (A ++ listed sep_comma l) = true.
Proof. rewrite forallb_app, (whole_comma A HA), listed_comma by exact HL. reflexivity. Qed.
Lemma list_not c : is_ascii_digit c = false -> mem_cp (u "-, ") c = false -> ~ In c (A ++ listed sep_comma l).
Proof. intros H1 H2. apply (digits_and_not_in (u "-, ")); [exact H1|exact H2|exact list_cp]. Qed.
Lemma list_further ints : further ints (A ++ listed sep_comma l) = (let x := A ++ listed bare l in if str_is_int x then ints x else x).
Proof.
  assert (S : starts_with [123] (A ++ listed sep_comma l) = false).
  { destruct (int_head A (listed sep_comma l) (whole_ne A HA) (whole_int A HA)) as (c & r & -> & Hc). cbn [starts_with]. destruct (N.eqb_spec 123 c) as [<-|_]; [discriminate Hc|reflexivity]. }
  assert (C : In 44 (A ++ listed sep_comma l)).
  { apply in_or_app; right. apply listed_has; [|exact Hne]. intros [k|c o]; [left; reflexivity|right; left; reflexivity]. }
  unfold further. rewrite S. cbn [andb]. cbv zeta. unfold norm_int. rewrite pair_no_float by exact C.
  change [bslash] with [92]. rewrite (contains_single_not 92) by (apply list_not; reflexivity).
  assert (re_sub (RSeq (lit 45) (RStarG sp)) [PLit (u "-")] (A ++ listed sep_comma l) = A ++ listed sep_comma l) as ->.
  { unfold re_sub, re_sub_fun. destruct (dash_number A (listed sep_comma l) [] HA) as [pre E]. unfold dash_re in E. rewrite E. f_equal. apply (listed_dash l HL). }
  assert (inject_mixed (A ++ listed sep_comma l) = A ++ listed sep_comma l) as ->.
  { unfold inject_mixed. assert (re_sub mixed_re1 [PGrp 1; PLit (u "+"); PGrp 2] (A ++ listed sep_comma l) = A ++ listed sep_comma l) as -> by (apply (sub_id_lit 47); [reflexivity|apply list_not; reflexivity]).
    apply (sub_id_lit 92); [reflexivity|apply list_not; reflexivity]. }
  assert (replace [32] [] (A ++ listed sep_comma l) = A ++ listed bare l) as ->.
  { rewrite replace_filter, filter_app, whole_filter, listed_filter by assumption. reflexivity. }
  assert (lower (A ++ listed bare l) = A ++ listed bare l) as ->; [|reflexivity].
  rewrite FloatText.lower_app, (int_lower A), listed_lower by (assumption || apply whole_int, HA). reflexivity.
Qed.
Lemma list_words : rewrite_words (A ++ listed sep_text l) = A ++ listed sep_comma l.
Proof.
  pose proof list_cp as H.
  assert (J : forallb joined_cp (A ++ listed sep_text l) = true) by (rewrite forallb_app, wholes_joined, listed_joined by assumption; reflexivity).
  assert (E2 : re_sub and_or_re [PLit (u " , ")] (A ++ listed sep_text l) = A ++ listed sep_comma l).
  { unfold re_sub, re_sub_fun. rewrite (sub_go_prefix int_cp) by (reflexivity || apply whole_int, HA). f_equal. apply (listed_words l HL). }
  pose proof (inert_words comma_cp comma_inert _ H) as W. unfold rewrite_words in W |- *.
  rewrite (alpha_replace joined_cp (u "\$")) by (reflexivity || exact J). rewrite (alpha_replace joined_cp (u "$")) by (reflexivity || exact J). rewrite E2.
  rewrite (alpha_replace comma_cp (u "\$")), (alpha_replace comma_cp (u "$")) in W by (reflexivity || exact H).
  assert (re_sub and_or_re [PLit (u " , ")] (A ++ listed sep_comma l) = A ++ listed sep_comma l) as E3 by (apply (alpha_sub_fun comma_cp); [vm_compute; reflexivity|exact H]).
  rewrite E3 in W. exact W.
Qed.
Theorem list_read ints : string_normalize ints (A ++ listed sep_text l) = NStr (let x := A ++ listed bare l in if str_is_int x then ints x else x).
Proof.
  pose proof list_cp as H.
  assert (J : forallb joined_cp (A ++ listed sep_text l) = true) by (rewrite forallb_app, wholes_joined, listed_joined by assumption; reflexivity).
  assert (Hpr : prepared (A ++ listed sep_text l) = A ++ listed sep_text l).
  { unfold prepared. assert (strip_sp (A ++ listed sep_text l) = A ++ listed sep_text l) as ->.
    { apply strip_by_id.
      - destruct (int_head A (listed sep_text l) (whole_ne A HA) (whole_int A HA)) as (c & r & -> & Hc). apply N.eqb_neq. intros <-. discriminate Hc.
      - destruct (last_int sep_text A l HA HL) as (x & c & -> & Hc). rewrite rev_app_distr. cbn [rev app]. apply N.eqb_neq. intros <-. discriminate Hc. }
    unfold str_matrix_normalize. rewrite (alpha_contains joined_cp (u "{cases}")), (alpha_contains joined_cp (u "{array}")) by (reflexivity || exact J).
    match goal with |- (if ?b then _ else _) = _ => destruct b end; [|reflexivity]. apply replace_absent. apply (alpha_contains joined_cp); [reflexivity|exact J]. }
  rewrite normalize_step, Hpr.
  rewrite (alpha_search joined_cp text_wrap_re), (alpha_search joined_cp set_builder_re) by (exact J || (vm_compute; reflexivity)).
  unfold norm_tail. cbv zeta.
  assert (del_tex_space (A ++ listed sep_text l) = A ++ listed sep_text l) as ->.
  { unfold del_tex_space. cbv zeta. rewrite (alpha_del joined_cp (rs "\:")) by ((vm_compute; reflexivity) || exact J). rewrite (alpha_del joined_cp (rs "\,")) by ((vm_compute; reflexivity) || exact J).
    rewrite (alpha_del joined_cp (rs "\;")) by ((vm_compute; reflexivity) || exact J). rewrite (alpha_del joined_cp (rs "\!")) by ((vm_compute; reflexivity) || exact J). apply (alpha_sub joined_cp); [vm_compute; reflexivity|exact J]. }
  rewrite (alpha_search joined_cp base_re) by (exact J || (vm_compute; reflexivity)).
  rewrite (alpha_contains joined_cp (u "%")) by (reflexivity || exact J). rewrite list_words.
  rewrite (inert_time comma_cp comma_inert _ H), (inert_units comma_cp comma_inert _ H), (inert_circ comma_cp comma_inert _ H).
  rewrite list_further. reflexivity.
Qed.
End Read.
Lemma listed_bare l l' : map snd l = map snd l' -> listed bare l = listed bare l'.
Proof.
  revert l'. induction l as [|[s B] l IH]; intros [|[s' B'] l'] E; try discriminate E; [reflexivity|]. injection E as -> E. rewrite !listed_cons, (IH l' E). reflexivity.
Qed.
Theorem list_plain ints A l : whole A -> wholes l -> l <> [] -> ~ has_thousands (A ++ listed bare l) ->
  string_normalize ints (A ++ listed sep_text l) = NStr (A ++ listed bare l).
Proof.
  intros HA HL Hne Hn. rewrite list_read by assumption. cbv zeta. unfold str_is_int. rewrite strip_commas_id by exact Hn.
  rewrite pair_no_float; [reflexivity|]. apply in_or_app. right. apply listed_has; [|exact Hne]. intro s. left. reflexivity.
Qed.
Lemma wholes_same l l' : map snd l = map snd l' -> wholes l -> wholes l'.
Proof. unfold wholes. intros E H. apply Forall_map. rewrite <- E. apply Forall_map, H. Qed.
Lemma list_same ints A l l' : whole A -> wholes l -> l <> [] -> map snd l = map snd l' ->
  string_normalize ints (A ++ listed sep_text l') = string_normalize ints (A ++ listed sep_text l).
Proof.
  intros HA HL Hne E. rewrite !list_read; try assumption; [|apply (wholes_same l); assumption|intros ->; destruct l; [contradiction|discriminate E]].
  rewrite (listed_bare l l' E). reflexivity.
Qed.
Theorem list_accepted W n A l l' st : whole A -> wholes l -> l <> [] -> map snd l = map snd l' ->
  is_equiv W (S n) (Some (A ++ listed sep_text l)) (Some (A ++ listed sep_text l')) st = (Ret true, st).
Proof.
  intros HA HL Hne E. pose proof (list_read A l HA HL Hne (int_str W)) as R. eapply is_equiv_same_norm; [exact R|]. rewrite (list_same _ A l l') by assumption. exact R.
Qed.
Theorem list_verdict W n A l l' b st : whole A -> wholes l -> l <> [] -> map snd l = map snd l' ->
  ~ equal_up_to_padding is_space (A ++ listed sep_text l) b -> ~ equal_up_to_padding is_space (A ++ listed sep_text l') b ->
  is_equiv W (S n) (Some (A ++ listed sep_text l)) (Some b) st = is_equiv W (S n) (Some (A ++ listed sep_text l')) (Some b) st.
Proof. intros HA HL Hne E. apply same_norm_verdict. symmetry. apply list_same; assumption. Qed.
(** Groups of three digits after at most three: one number *)
Definition three_digits (e : sep * pystr) : Prop := Forall ascii_digit (snd e) /\ length (snd e) = 3%nat.
Definition groups_of (l : list (sep * pystr)) : list (pystr * pystr) := map (fun e => ([], snd e)) l.
Lemma bare_groups l : listed bare l = groups_text (groups_of l).
Proof. induction l as [|[s B] l IH]; [reflexivity|]. rewrite listed_cons, IH. reflexivity. Qed.
Lemma plain_groups l : groups_plain (groups_of l) = concat (map snd l).
Proof. induction l as [|[s B] l IH]; [reflexivity|]. cbn. f_equal. exact IH. Qed.
Lemma ascii_digits D : Forall ascii_digit D -> digits D.
Proof. intro F. eapply Forall_impl; [|exact F]. intros c Hc. ten c Hc; reflexivity. Qed.
Lemma digits_are_whole D : Forall ascii_digit D -> (1 <= length D)%nat -> whole D.
Proof. intros F L. exists false, D. split; [reflexivity|]. split; [exact F|]. intros ->. cbn in L. lia. Qed.
Lemma three_wholes l : Forall three_digits l -> wholes l.
Proof. apply Forall_impl. intros e [F L]. apply digits_are_whole; [exact F|rewrite L; lia]. Qed.
Theorem list_merged W n z A l st : (- 2 ^ 53 <= z <= 2 ^ 53)%Z -> Forall ascii_digit A -> (1 <= length A <= 3)%nat -> Forall three_digits l -> l <> [] ->
  dec_Z z = A ++ concat (map snd l) -> int_str W (A ++ listed bare l) = int_str W (dec_Z z) ->
  is_equiv W (S n) (Some (A ++ listed sep_text l)) (Some (dec_Z z)) st = (Ret true, st).
Proof.
  intros Hz HA LA HL Hne E Hi. apply (is_equiv_same_norm W n _ _ (int_str W (dec_Z z))); [|apply normalize_int, Hz].
  rewrite list_read; [|apply digits_are_whole; [exact HA|apply LA]|apply three_wholes, HL|exact Hne]. cbv zeta.
  assert (str_is_int (A ++ listed bare l) = true) as ->; [|rewrite Hi; reflexivity].
  pose proof (strip_commas_grouped [] A (groups_of l) []) as G. cbn [app] in G. rewrite !app_nil_r, <- bare_groups, plain_groups in G.
  unfold str_is_int. rewrite G.
  - rewrite <- E. destruct (int_exact z Hz) as (f & -> & X & _). exact X.
  - constructor.
  - split; [exact LA|apply ascii_digits, HA].
  - destruct l; [contradiction|discriminate].
  - unfold groups_of. apply Forall_map. eapply Forall_impl; [|exact HL]. intros e [F L]. split; [left; reflexivity|]. split; [exact L|apply ascii_digits, F].
  - constructor.
  - exact I.
Qed.
