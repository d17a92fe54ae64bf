(** Units after an integer. *)
From Coq Require Import String List NArith ZArith Bool Lia Arith.
From Verif Require Import UnicodeTables PyStr PyStrTheory NumTheory Regex RegexTheory Float64 FloatTheory Constants Normalize NormTheory RegexFirst NormNum NormPct NormMixed NormSci NormTime NormShape Monad Split Eval EvalTheory.
Import ListNotations.
Local Open Scope N_scope.
Local Arguments N.eqb : simpl never.

Definition int_cp : N -> bool := digits_and [45].
Lemma dec_Z_alpha z : forallb int_cp (dec_Z z) = true.
Proof.
  destruct z as [|p|p]; [reflexivity| |]; cbn [dec_Z].
  - apply digits_and_digit, dec_N_digits.
  - cbn [forallb]. change (int_cp 45) with true. apply digits_and_digit, dec_N_digits.
Qed.
Lemma contains_skip p ds s : match p with c :: _ => int_cp c = false | [] => False end -> forallb int_cp ds = true ->
  contains p (ds ++ s) = contains p s.
Proof.
  destruct p as [|c p]; [contradiction|]. intros Hc. induction ds as [|d ds IH]; intro H; [reflexivity|].
  cbn [forallb] in H. apply andb_true_iff in H. destruct H as [Hd H]. cbn [app contains starts_with].
  destruct (N.eqb_spec c d) as [->|_]; [congruence|]. cbn [andb orb]. apply IH, H.
Qed.
Lemma re_del_prefix r ds s : starts_out int_cp r = true -> forward r = true -> forallb int_cp ds = true -> re_del r (ds ++ s) = ds ++ re_del r s.
Proof. apply re_sub_prefix. Qed.
Lemma fold_prefix {A} (f : pystr -> A -> pystr) ds l : (forall s x, In x l -> f (ds ++ s) x = ds ++ f s x) ->
  forall s, fold_left f l (ds ++ s) = ds ++ fold_left f l s.
Proof.
  induction l as [|x l IH]; intros H s; [reflexivity|]. cbn [fold_left]. rewrite H by (left; reflexivity). apply IH. intros; apply H; right; assumption.
Qed.
Definition skips (r : regex) : bool := starts_out int_cp r && forward r.
Lemma units_skip : forallb (fun x => skips (unit_text_re (u "text") x) && skips (unit_text_re (u "mbox") x)) UNIT_LIST = true /\
  forallb (fun x => skips (unit_long_re x)) UNIT_LONG_LIST = true /\ forallb (fun x => skips (unit_short_re x)) UNIT_SHORT_LIST = true /\ skips text_re = true.
Proof. vm_compute. auto. Qed.

Section Prefix.
Variable P : pystr.
Hypothesis HP : forallb int_cp P = true.
Lemma del_skip r s : skips r = true -> re_del r (P ++ s) = P ++ re_del r s.
Proof. intro H. apply andb_true_iff in H. destruct H. apply re_del_prefix; assumption. Qed.
Lemma sub_skip r t s : skips r = true -> re_sub r t (P ++ s) = P ++ re_sub r t s.
Proof. intro H. apply andb_true_iff in H. destruct H. eapply re_sub_prefix; eassumption. Qed.
Lemma units_prefix s : del_units (P ++ s) = P ++ del_units s.
Proof.
  destruct units_skip as (H1 & H2 & H3 & H4). rewrite forallb_forall in H1, H2, H3.
  unfold del_units, del_text_units. rewrite fold_prefix.
  2:{ intros t x Hx. apply H1 in Hx. apply andb_true_iff in Hx. destruct Hx as [Ha Hb]. rewrite (del_skip _ _ Ha), (del_skip _ _ Hb). reflexivity. }
  rewrite (del_skip _ _ H4). unfold del_long_units. rewrite fold_prefix by (intros t x Hx; apply del_skip; auto).
  unfold del_short_units. rewrite fold_prefix by (intros t x Hx; apply del_skip; auto). reflexivity.
Qed.
Lemma tex_space_prefix s : del_tex_space (P ++ s) = P ++ del_tex_space s.
Proof.
  unfold del_tex_space. cbv zeta. rewrite !(fun r s => del_skip r s eq_refl : re_del r (P ++ s) = P ++ re_del r s) || idtac.
  rewrite (del_skip (rs "\:")) by reflexivity. rewrite (del_skip (rs "\,")) by reflexivity. rewrite (del_skip (rs "\;")) by reflexivity.
  rewrite (del_skip (rs "\!")) by reflexivity. apply sub_skip. reflexivity.
Qed.
Lemma words_prefix s : rewrite_words (P ++ s) = P ++ rewrite_words s.
Proof.
  unfold rewrite_words. cbv zeta.
  rewrite (replace_prefix int_cp (u "\$")) by (reflexivity || exact HP). rewrite (replace_prefix int_cp (u "$")) by (reflexivity || exact HP).
  rewrite (sub_skip and_or_re) by reflexivity.
  rewrite (replace_prefix int_cp (u "million")) by (reflexivity || exact HP). rewrite (replace_prefix int_cp (u "billion")) by (reflexivity || exact HP).
  rewrite (replace_prefix int_cp (u "trillion")) by (reflexivity || exact HP). rewrite (replace_prefix int_cp [12]) by (reflexivity || exact HP).
  rewrite (replace_prefix int_cp [8]) by (reflexivity || exact HP). rewrite (replace_prefix int_cp [7]) by (reflexivity || exact HP).
  rewrite (replace_prefix int_cp [9]) by (reflexivity || exact HP). rewrite (replace_prefix int_cp [13]) by (reflexivity || exact HP).
  rewrite (sub_skip (rs "\left(")) by reflexivity. rewrite (sub_skip (rs "\left[")) by reflexivity. rewrite (sub_skip (rs "\right)")) by reflexivity.
  rewrite (sub_skip (rs "\right]")) by reflexivity. apply del_skip. reflexivity.
Qed.
End Prefix.

(** ** Not a time *)
Definition after_hour : list regex := [RStarG (RChr CSpace); RGrp 2 meridiem_re; REol].
Lemma digit_no_meridiem c r pre cs : ascii_digit c -> matches (rseq after_hour) (MSt pre (c :: r) cs) = [].
Proof.
  intro Hc. destruct (matches _ _) as [|x l] eqn:E; [reflexivity|exfalso].
  assert (H : In x (matches (rseq after_hour) (MSt pre (c :: r) cs))) by (rewrite E; left; reflexivity).
  unfold after_hour in H. apply in_rseq_cons in H. destruct H as (st1 & H1 & H). apply in_star_chr in H1. destruct H1 as (w & s' & E1 & Hw & ->).
  destruct w as [|d w].
  2:{ cbn [app] in E1. injection E1 as <- _. cbn [forallb cls_in] in Hw. rewrite (digit_not_space c Hc) in Hw. discriminate. }
  cbn [app rev] in *. subst s'. apply in_rseq_cons in H. destruct H as (st2 & H2 & _). apply in_grp in H2. destruct H2 as (st3 & w & H3 & _).
  apply matches_sound in H3. destruct H3 as (v & Hv & Hd & _). destruct Hv as [Hv _]. cbn [after] in Hv.
  assert (A : int_cp c = true) by (unfold int_cp, digits_and; apply ascii_digit_b in Hc; rewrite Hc; reflexivity).
  pose proof (ho_sound int_cp meridiem_re v eq_refl Hd) as Hh. pose proof (nullable_sound meridiem_re v eq_refl Hd) as Hn.
  destruct v as [|d v]; [contradiction|]. injection Hv as <- _. congruence.
Qed.
Lemma time1_inv s st : In st (matches time_re1 (MSt [] s [])) -> exists g r pre cs, s = g ++ r /\ (length g = 1 \/ length g = 2)%nat /\
  forallb is_digit g = true /\ In st (matches (rseq after_hour) (MSt pre r cs)).
Proof.
  unfold time_re1. intro H. apply in_rseq_cons in H. destruct H as (st1 & H1 & H). apply in_bol in H1. destruct H1 as [_ ->].
  apply in_rseq_cons in H. destruct H as (st2 & H2 & H). apply in_grp in H2. destruct H2 as (st3 & g & H3 & E & ->).
  apply in_rseq_cons in H3. destruct H3 as (st4 & H4 & H3). apply in_chr in H4. destruct H4 as (a & s1 & -> & Ha & ->).
  apply in_rseq_cons in H3. destruct H3 as (st5 & H5 & H3). apply in_rseq_nil in H3. subst st5. apply in_opt in H5. destruct H5 as [H5| ->].
  - apply in_chr in H5. destruct H5 as (b & s2 & -> & Hb & ->). cbn [after before caps] in *.
    exists g, s2, [b; a], [(1%nat, g)]. split; [exact E|]. change (a :: b :: s2) with ([a; b] ++ s2) in E. apply app_inv_tail in E. subst g.
    split; [auto|]. split; [|exact H]. cbn [forallb]. cbn [cls_in] in Ha, Hb. rewrite Ha, Hb. reflexivity.
  - cbn [after before caps] in *. exists g, s1, [a], [(1%nat, g)]. split; [exact E|]. change (a :: s1) with ([a] ++ s1) in E. apply app_inv_tail in E. subst g.
    split; [auto|]. split; [|exact H]. cbn [forallb]. cbn [cls_in] in Ha. rewrite Ha. reflexivity.
Qed.
Definition no_meridiem (s : pystr) : bool := match matches (rseq after_hour) (MSt [] s []) with [] => true | _ => false end.
Lemma no_meridiem_any s pre cs : no_meridiem s = true -> matches (rseq after_hour) (MSt pre s cs) = [].
Proof.
  unfold no_meridiem. destruct (matches (rseq after_hour) (MSt [] s [])) as [|x l] eqn:E; [|discriminate]. intros _.
  destruct (matches (rseq after_hour) (MSt pre s cs)) as [|y l] eqn:E2; [reflexivity|exfalso].
  assert (H : In y (matches (rseq after_hour) (MSt pre s cs))) by (rewrite E2; left; reflexivity).
  unfold after_hour in H, E. apply in_rseq_cons in H. destruct H as (st1 & H1 & H). apply in_star_chr in H1. destruct H1 as (w & s' & Es & Hw & ->).
  apply in_rseq_cons in H. destruct H as (st2 & H2 & H3). apply in_grp in H2. destruct H2 as (st3 & v & H4 & Ev & ->).
  pose proof (same_matches meridiem_re eq_refl (MSt (rev w ++ pre) s' []) (MSt (rev w ++ []) s' []) (conj eq_refl eq_refl)) as F1.
  assert (G : forall r, forward r = true -> forall a b, after a = after b -> Forall2 (fun x y => after x = after y) (matches r a) (matches r b)).
  { clear. induction r as [|k|a IHa b IHb|a IHa b IHb|g a IHa|n a IHa| | |q k|q k]; intros Hf x y Hxy; cbn [forward] in Hf; cbn [matches]; try discriminate.
    - constructor; [exact Hxy|constructor].
    - rewrite Hxy. destruct (after y) as [|c s]; [constructor|]. destruct (cls_in k c); constructor; [reflexivity|constructor].
    - apply andb_true_iff in Hf. destruct Hf as [Ha Hb]. eapply Forall2_flat_map; eauto.
    - apply andb_true_iff in Hf. destruct Hf as [Ha Hb]. apply Forall2_app; auto.
    - rewrite Hxy. generalize (length (after y)). intro f. revert x y Hxy. induction f as [|f IHf]; intros x y Hxy; cbn [star_matches]; [constructor; [exact Hxy|constructor]|].
      assert (G : Forall2 (fun x y => after x = after y)
        (flat_map (star_matches (matches a) g f) (filter (fun st' => Nat.ltb (length (after st')) (length (after x))) (matches a x)))
        (flat_map (star_matches (matches a) g f) (filter (fun st' => Nat.ltb (length (after st')) (length (after y))) (matches a y)))).
      { eapply Forall2_flat_map; [|exact IHf]. pose proof (IHa Hf x y Hxy) as F. rewrite Hxy.
        induction F as [|x' y' l l' E F IHF]; cbn [filter]; [constructor|]. rewrite E.
        destruct (length (after y') <? length (after y))%nat; [constructor; [exact E|exact IHF]|exact IHF]. }
      destruct g; [apply Forall2_app; [exact G|]; constructor; [exact Hxy|constructor]|constructor; [exact Hxy|exact G]].
    - pose proof (IHa Hf x y Hxy) as F. rewrite Hxy. induction F as [|x1 y1 l l' E F IHF]; cbn; [constructor|]. constructor; [exact E|exact IHF].
    - rewrite Hxy. destruct (at_end (after y)); constructor; [exact Hxy|constructor].
    - rewrite Hxy. match goal with |- context [Bool.eqb ?p ?q] => destruct (Bool.eqb p q) end; constructor; [exact Hxy|constructor]. }
  pose proof (G (rseq after_hour) eq_refl (MSt pre s cs) (MSt [] s []) eq_refl) as F. unfold after_hour in F, E2. rewrite E2, E in F. inversion F.
Qed.
Lemma int_cp_digit c : int_cp c = true -> is_digit c = true -> ascii_digit c.
Proof.
  intros H1 H2. unfold int_cp, digits_and in H1. apply orb_true_iff in H1. destruct H1 as [H1|H1]; [apply ascii_digit_b; exact H1|].
  unfold mem_cp in H1. cbn [existsb] in H1. rewrite orb_false_r in H1. apply N.eqb_eq in H1. subst c. discriminate H2.
Qed.
Definition unsuffixed (s : pystr) : bool := match s with c :: _ => negb (is_digit c) | [] => true end.
Lemma not_time1 P s : Forall ascii_digit P -> P <> [] -> unsuffixed s = true -> (3 <= length P)%nat \/ no_meridiem s = true ->
  re_search time_re1 (P ++ s) = None.
Proof.
  intros HP Hne Hs Hc. rewrite anchored_search by reflexivity. destruct (match_at time_re1 [] (P ++ s)) as [st|] eqn:E; [exfalso|reflexivity].
  apply hd_error_in in E. apply time1_inv in E. destruct E as (g & r & pre & cs & E & Hl & Hg & Hin).
  apply app_eq_app in E. destruct E as (l & [[E1 E2]|[E1 E2]]).
  - subst P r. apply Forall_app in HP. destruct HP as [_ HP]. destruct l as [|c l].
    + cbn [app] in Hin. destruct Hc as [Hc|Hc]; [rewrite app_nil_r in Hc; lia|]. rewrite (no_meridiem_any s pre cs Hc) in Hin. destruct Hin.
    + inversion HP; subst. cbn [app] in Hin. rewrite digit_no_meridiem in Hin by assumption. destruct Hin.
  - subst g s. destruct l as [|c l].
    + cbn [app] in *. rewrite app_nil_r in *. destruct Hc as [Hc|Hc]; [lia|]. rewrite (no_meridiem_any r pre cs Hc) in Hin. destruct Hin.
    + rewrite forallb_app in Hg. apply andb_true_iff in Hg. destruct Hg as [_ Hg]. cbn [forallb app unsuffixed] in *.
      apply andb_true_iff in Hg. destruct Hg as [Hg _]. rewrite Hg in Hs. discriminate Hs.
Qed.
Lemma not_time1_neg r : re_search time_re1 (45 :: r) = None.
Proof.
  rewrite anchored_search by reflexivity. destruct (match_at time_re1 [] (45 :: r)) as [st|] eqn:E; [exfalso|reflexivity].
  apply hd_error_in in E. apply time1_inv in E. destruct E as (g & q & pre & cs & E & Hl & Hg & _).
  destruct g as [|c g]; [cbn in Hl; lia|]. cbn [app] in E. injection E as <- _. cbn [forallb] in Hg. discriminate Hg.
Qed.

(** ** Suffixes that disappear *)
Definition lacks (c : N) (s : pystr) : bool := negb (mem_cp s c).
Lemma lacks_spec c s : lacks c s = true -> ~ In c s.
Proof.
  intros H Hin. unfold lacks in H. apply negb_true_iff in H. unfold mem_cp in H. assert (existsb (N.eqb c) s = true); [|congruence].
  apply existsb_exists. exists c. split; [exact Hin|apply N.eqb_refl].
Qed.
Definition vanishes (s : pystr) : bool :=
  match s with [] => false | _ => negb (ends_with [32] s) end &&
  negb (contains (u "{cases}") s) && negb (contains (u "{array}") s) && negb (contains (u "\\") s) &&
  (let s1 := del_tex_space s in
   lacks 95 s1 && lacks 37 s1 && (let s2 := rewrite_words s1 in lacks 58 s2 && unsuffixed s2 && str_eqb (del_units s2) [])).
(** No am or pm at the end *)
Definition timeless (s : pystr) : bool := no_meridiem (rewrite_words (del_tex_space s)).

Lemma lacks_app c P s : forallb int_cp P = true -> int_cp c = false -> lacks c s = true -> ~ In c (P ++ s).
Proof.
  intros HP Hc Hs Hin. apply in_app_or in Hin. destruct Hin as [Hin|Hin]; [|apply (lacks_spec _ _ Hs Hin)].
  rewrite forallb_forall in HP. apply HP in Hin. congruence.
Qed.
Lemma int_head P s : P <> [] -> forallb int_cp P = true -> exists c r, P ++ s = c :: r /\ int_cp c = true.
Proof.
  intros Hne HP. destruct P as [|c P]; [contradiction|]. exists c, (P ++ s). split; [reflexivity|]. cbn [forallb] in HP. apply andb_true_iff in HP. apply HP.
Qed.
Lemma int_cp_out c d : int_cp c = true -> int_cp d = false -> c <> d.
Proof. congruence. Qed.
Lemma ends_with_last c s : ends_with [c] s = true -> exists t, s = t ++ [c].
Proof. intro H. unfold ends_with in H. apply starts_with_spec in H. destruct H as [t H]. exists (rev t). rewrite <- (rev_involutive s), H. reflexivity. Qed.
Lemma anchored_head_none r c s : anchored r = true -> (forall st, ~ In st (matches r (MSt [] (c :: s) []))) -> re_search r (c :: s) = None.
Proof.
  intros Ha Hn. rewrite anchored_search by exact Ha. destruct (match_at r [] (c :: s)) as [st|] eqn:E; [|reflexivity].
  apply hd_error_in in E. destruct (Hn st E).
Qed.
Lemma suffix_tail ints P s : P <> [] -> forallb int_cp P = true -> vanishes s = true ->
  re_search time_re1 (P ++ rewrite_words (del_tex_space s)) = None ->
  string_normalize ints (P ++ s) = norm_circ ints P.
Proof.
  intros Hne HP Hv Ht. unfold vanishes in Hv. cbv zeta in Hv. rewrite !andb_true_iff in Hv.
  destruct Hv as [[[[V1 V2] V3] V4] [[V5 V6] [[V7 V8] V9]]].
  apply negb_true_iff in V2. apply negb_true_iff in V3. apply negb_true_iff in V4.
  destruct (int_head P s Hne HP) as (c & r & Ec & Hc).
  assert (Hp : prepared (P ++ s) = P ++ s).
  { unfold prepared. assert (strip_sp (P ++ s) = P ++ s) as ->.
    { apply strip_by_id.
      - rewrite Ec. apply N.eqb_neq. intros <-. discriminate Hc.
      - rewrite rev_app_distr. destruct s as [|a s]; [discriminate V1|]. apply negb_true_iff in V1.
        destruct (rev (a :: s)) as [|x l] eqn:Er; [apply (f_equal (@length N)) in Er; rewrite rev_length in Er; discriminate|].
        cbn [app]. apply N.eqb_neq. intros <-. unfold ends_with in V1. rewrite Er in V1. discriminate V1. }
    unfold str_matrix_normalize. rewrite (contains_skip (u "{cases}") P s) by (reflexivity || exact HP). rewrite V2.
    rewrite (contains_skip (u "{array}") P s) by (reflexivity || exact HP). rewrite V3.
    clear V1. match goal with |- (if ?b then _ else _) = _ => destruct b end; [|reflexivity]. apply replace_absent. rewrite contains_skip by (reflexivity || exact HP). exact V4. }
  rewrite normalize_step, Hp.
  destruct (re_search text_wrap_re (P ++ s)) as [st|] eqn:E1.
  { apply text_wrap_sound in E1. destruct E1 as (k & w1 & w2 & nl & _ & _ & _ & _ & E). rewrite Ec in E. injection E as -> _. discriminate Hc. }
  destruct (re_search set_builder_re (P ++ s)) as [st|] eqn:E2.
  { apply set_builder_sound in E2. destruct E2 as (a & nl & _ & E). rewrite Ec in E. injection E as -> _. discriminate Hc. }
  unfold norm_tail. cbv zeta. rewrite (tex_space_prefix P HP).
  rewrite (search_none_lit 95 base_re) by (reflexivity || (apply lacks_app; [exact HP|reflexivity|exact V5])).
  assert (contains (u "%") (P ++ del_tex_space s) = false) as ->.
  { destruct (contains (u "%") (P ++ del_tex_space s)) eqn:E; [|reflexivity]. apply contains_spec in E. destruct E as (x1 & x2 & E). assert (H37 : In 37 (P ++ del_tex_space s)) by (rewrite E; apply in_or_app; right; left; reflexivity). clear E.
    destruct (lacks_app 37 P _ HP eq_refl V6 H37). }
  rewrite (words_prefix P HP). unfold str_to_time_list. rewrite Ht.
  rewrite (search_none_lit 58 time_re2) by (reflexivity || (apply lacks_app; [exact HP|reflexivity|exact V7])).
  rewrite (units_prefix P HP). apply str_eqb_eq in V9. rewrite V9, app_nil_r. reflexivity.
Qed.

Lemma int_circ ints z : (- 2 ^ 53 <= z <= 2 ^ 53)%Z -> norm_circ ints (dec_Z z) = NStr (ints (dec_Z z)).
Proof.
  intro H. rewrite <- (normalize_int ints z H).
  assert (Ha : forallb num_cp (dec_Z z) = true) by apply plain_num_digits, dec_Z_plain.
  rewrite (inert_circ num_cp num_inert _ Ha). symmetry. apply (inert_normalize num_cp num_inert _ Ha).
  - apply (alpha_contains num_cp); [reflexivity|exact Ha].
  - apply strip_sp_id. intro Hin. pose proof (dec_Z_alpha z) as F. rewrite forallb_forall in F. apply F in Hin. discriminate Hin.
Qed.
Lemma dec_Z_ne z : dec_Z z <> [].
Proof. destruct z as [|p|p]; [discriminate| |discriminate]. cbn [dec_Z]. apply dec_N_spec. Qed.
(** Three digits *)
Lemma int_suffix ints z s : (- 2 ^ 53 <= z <= 2 ^ 53)%Z -> vanishes s = true -> (100 <= Z.abs z)%Z \/ timeless s = true ->
  string_normalize ints (dec_Z z ++ s) = NStr (ints (dec_Z z)).
Proof.
  intros Hz Hv Ht. rewrite (suffix_tail ints (dec_Z z) s (dec_Z_ne z) (dec_Z_alpha z) Hv); [apply int_circ; exact Hz|].
  assert (U : unsuffixed (rewrite_words (del_tex_space s)) = true).
  { unfold vanishes in Hv. cbv zeta in Hv. rewrite !andb_true_iff in Hv. tauto. }
  destruct z as [|p|p]; cbn [dec_Z].
  - apply not_time1; [apply (dec_N_digits 0)|discriminate|exact U|]. right. destruct Ht as [Ht|Ht]; [lia|exact Ht].
  - apply not_time1; [apply dec_N_digits|apply dec_N_spec|exact U|]. destruct Ht as [Ht|Ht]; [left|right; exact Ht].
    destruct (le_lt_dec 3 (length (dec_N (Npos p)))) as [|Hl]; [assumption|exfalso].
    pose proof (dec_value_bound (dec_N (Npos p)) (dec_N_digits _)) as B. rewrite (proj1 (proj2 (dec_N_spec (Npos p)))) in B.
    assert (10 ^ N.of_nat (length (dec_N (N.pos p))) <= 10 ^ 2) by (apply N.pow_le_mono_r; lia).
    change (10 ^ 2) with 100 in *. lia.
  - apply not_time1_neg.
Qed.

(** ** The unit tables *)
Definition plurals : list pystr := [[]; u "s"; u "es"].
Definition powers : list pystr := [[]; u "^2"; u "^3"; u "^{2}"; u "^{3}"].
(** [\text{unit}], [\mbox{ units}^2], ... *)
Definition text_suffixes (unit : pystr) : list pystr :=
  flat_map (fun cmd => flat_map (fun sp => flat_map (fun pl => map (fun pw => [bslash] ++ cmd ++ [123] ++ sp ++ unit ++ pl ++ [125] ++ pw)
    powers) plurals) [[]; [32]]) [u "text"; u "mbox"].
(** [ unit], [ units^2], ... *)
Definition bare_suffixes (unit : pystr) : list pystr :=
  flat_map (fun sp => flat_map (fun pl => map (fun pw => sp ++ unit ++ pl ++ pw) powers) plurals) [[32]; [32; 32]].
Definition meridiems : list pystr := [u "a.m."; u "p.m."; u "A.M."; u "P.M."; u "am"; u "AM"; u "PM"; u "pm"].
Definition is_meridiem (x : pystr) : bool := existsb (str_eqb x) meridiems.
Definition MULTI : list pystr := UNIT_LONG_LIST ++ UNIT_SHORT_LIST.
Definition glued_suffixes (unit : pystr) : list pystr :=
  flat_map (fun pl => map (fun pw => unit ++ pl ++ pw) powers) plurals.
Definition suffix_ok (unit s : pystr) : bool := vanishes s && (is_meridiem unit || timeless s).
(** The tables are checked with a faster deletion: a pattern that needs a letter the text does not have is skipped *)
Definition quick (ks : pystr) (f : pystr -> pystr) (s : pystr) : pystr := if forallb (mem_cp s) ks then f s else s.
Lemma del_needs c r s : needs_lit c r = true -> mem_cp s c = false -> re_del r s = s.
Proof.
  intros H Hm. unfold re_del, re_sub. apply (sub_id_lit c); [exact H|]. apply lacks_spec. unfold lacks. rewrite Hm. reflexivity.
Qed.
Lemma quick_id ks f s : (forall c, In c ks -> mem_cp s c = false -> f s = s) -> quick ks f s = f s.
Proof.
  intro H. unfold quick. induction ks as [|c ks IH]; [reflexivity|]. cbn [forallb].
  destruct (mem_cp s c) eqn:E; cbn [andb]; [apply IH; intros d Hd; apply H; right; exact Hd|]. symmetry. apply (H c); [left; reflexivity|exact E].
Qed.
(** the letters of a unit its patterns need, rare ones first *)
Definition rarity (c : N) : nat := length (filter (fun x => mem_cp x c) UNIT_LIST).
Fixpoint by_rarity (c : N) (l : pystr) : pystr :=
  match l with [] => [c] | d :: r => if c =? d then l else if Nat.leb (rarity c) (rarity d) then c :: l else d :: by_rarity c r end.
Definition needed (rs : list regex) (x : pystr) : pystr :=
  fold_right by_rarity [] (filter (fun c => forallb (needs_lit c) rs) x).
Definition text_keys : list (pystr * pystr) := Eval vm_compute in map (fun x => (x, needed [unit_text_re (u "text") x; unit_text_re (u "mbox") x] x)) UNIT_LIST.
Definition long_keys : list (pystr * pystr) := Eval vm_compute in map (fun x => (x, needed [unit_long_re x] x)) UNIT_LONG_LIST.
Definition short_keys : list (pystr * pystr) := Eval vm_compute in map (fun x => (x, needed [unit_short_re x] x)) UNIT_SHORT_LIST.
Definition quick_units (s : pystr) : pystr :=
  fold_left (fun e k => quick (snd k) (re_del (unit_short_re (fst k))) e) short_keys
    (fold_left (fun e k => quick (snd k) (re_del (unit_long_re (fst k))) e) long_keys
      (re_del text_re
        (fold_left (fun e k => quick (snd k) (fun e => re_del (unit_text_re (u "mbox") (fst k)) (re_del (unit_text_re (u "text") (fst k)) e)) e) text_keys s))).
Lemma fold_quick (f : pystr -> pystr -> pystr) (keys : list (pystr * pystr)) l s : map fst keys = l ->
  (forall x ks c e, In (x, ks) keys -> In c ks -> mem_cp e c = false -> f e x = e) ->
  fold_left (fun e k => quick (snd k) (fun e => f e (fst k)) e) keys s = fold_left f l s.
Proof.
  intros <-. revert s. induction keys as [|[x ks] keys IH]; intros s H; [reflexivity|]. cbn [map fold_left fst snd].
  rewrite (quick_id ks (fun e => f e x)) by (intros c Hc Hm; apply (H x ks c); [left; reflexivity|exact Hc|exact Hm]).
  apply IH. intros y ls c e Hy. apply H. right. exact Hy.
Qed.
Definition keys_need (rs : pystr -> list regex) (keys : list (pystr * pystr)) : bool :=
  forallb (fun k => forallb (fun c => forallb (needs_lit c) (rs (fst k))) (snd k)) keys.
Lemma keys_need_spec rs keys x ks c r : keys_need rs keys = true -> In (x, ks) keys -> In c ks -> In r (rs x) -> needs_lit c r = true.
Proof.
  intros H H1 H2 H3. unfold keys_need in H. rewrite forallb_forall in H. specialize (H _ H1). cbn [fst snd] in H.
  rewrite forallb_forall in H. specialize (H _ H2). rewrite forallb_forall in H. apply H, H3.
Qed.
Lemma quick_units_eq s : quick_units s = del_units s.
Proof.
  assert (N1 : keys_need (fun x => [unit_text_re (u "text") x; unit_text_re (u "mbox") x]) text_keys = true) by (vm_compute; reflexivity).
  assert (N2 : keys_need (fun x => [unit_long_re x]) long_keys = true) by (vm_compute; reflexivity).
  assert (N3 : keys_need (fun x => [unit_short_re x]) short_keys = true) by (vm_compute; reflexivity).
  assert (M1 : map fst text_keys = UNIT_LIST) by (vm_compute; reflexivity).
  assert (M2 : map fst long_keys = UNIT_LONG_LIST) by (vm_compute; reflexivity).
  assert (M3 : map fst short_keys = UNIT_SHORT_LIST) by (vm_compute; reflexivity).
  unfold quick_units, del_units, del_short_units, del_long_units, del_text_units.
  rewrite (fold_quick (fun e x => re_del (unit_short_re x) e) short_keys UNIT_SHORT_LIST _ M3).
  2:{ intros x ks c e Hx Hc Hm. apply (del_needs c); [|exact Hm]. eapply keys_need_spec; [exact N3|exact Hx|exact Hc|left; reflexivity]. }
  rewrite (fold_quick (fun e x => re_del (unit_long_re x) e) long_keys UNIT_LONG_LIST _ M2).
  2:{ intros x ks c e Hx Hc Hm. apply (del_needs c); [|exact Hm]. eapply keys_need_spec; [exact N2|exact Hx|exact Hc|left; reflexivity]. }
  rewrite (fold_quick (fun e x => re_del (unit_text_re (u "mbox") x) (re_del (unit_text_re (u "text") x) e)) text_keys UNIT_LIST _ M1).
  2:{ intros x ks c e Hx Hc Hm. rewrite (del_needs c (unit_text_re (u "text") x) e); [|eapply keys_need_spec; [exact N1|exact Hx|exact Hc|left; reflexivity]|exact Hm].
      apply (del_needs c); [|exact Hm]. eapply keys_need_spec; [exact N1|exact Hx|exact Hc|right; left; reflexivity]. }
  reflexivity.
Qed.
(** [suffix_ok] with the text rewritten once *)
Definition quick_ok (unit s : pystr) : bool :=
  match s with [] => false | _ => negb (ends_with [32] s) end &&
  negb (contains (u "{cases}") s) && negb (contains (u "{array}") s) && negb (contains (u "\\") s) &&
  (fun s1 => lacks 95 s1 && lacks 37 s1 &&
    (fun s2 => lacks 58 s2 && unsuffixed s2 && str_eqb (quick_units s2) [] && (is_meridiem unit || no_meridiem s2)) (rewrite_words s1)) (del_tex_space s).
Lemma quick_suffix unit s : quick_ok unit s = true -> suffix_ok unit s = true.
Proof.
  unfold quick_ok, suffix_ok, vanishes, timeless. cbv beta zeta. rewrite quick_units_eq, !andb_true_iff. tauto.
Qed.
Lemma quick_table (suffixes : pystr -> list pystr) l : forallb (fun x => forallb (quick_ok x) (suffixes x)) l = true ->
  forallb (fun x => forallb (suffix_ok x) (suffixes x)) l = true.
Proof.
  rewrite !forallb_forall. intros H x Hx. specialize (H x Hx). cbv beta in *. rewrite forallb_forall in *. intros s Hs. apply quick_suffix, H, Hs.
Qed.
Lemma text_table : forallb (fun x => forallb (suffix_ok x) (text_suffixes x)) UNIT_LIST = true.
Proof. apply quick_table. vm_compute. reflexivity. Qed.
Lemma bare_table : forallb (fun x => forallb (suffix_ok x) (bare_suffixes x)) MULTI = true.
Proof. apply quick_table. vm_compute. reflexivity. Qed.
Lemma glued_table : forallb (fun x => forallb (suffix_ok x) (glued_suffixes x)) UNIT_LONG_LIST = true.
Proof. apply quick_table. vm_compute. reflexivity. Qed.
(** Every way to write the unit *)
Inductive unit_suffix (unit : pystr) : pystr -> Prop :=
| us_text cmd sp pl pw : In unit UNIT_LIST -> In cmd [u "text"; u "mbox"] -> In sp [[]; [32]] -> In pl plurals -> In pw powers ->
    unit_suffix unit ([bslash] ++ cmd ++ [123] ++ sp ++ unit ++ pl ++ [125] ++ pw)
| us_bare sp pl pw : In unit (UNIT_LONG_LIST ++ UNIT_SHORT_LIST) -> In sp [[32]; [32; 32]] -> In pl plurals -> In pw powers ->
    unit_suffix unit (sp ++ unit ++ pl ++ pw)
| us_glued pl pw : In unit UNIT_LONG_LIST -> In pl plurals -> In pw powers -> unit_suffix unit (unit ++ pl ++ pw).
Lemma unit_suffix_ok unit s : unit_suffix unit s -> suffix_ok unit s = true.
Proof.
  intros [cmd sp pl pw H H1 H2 H3 H4|sp pl pw H H2 H3 H4|pl pw H H3 H4].
  - pose proof text_table as T. rewrite forallb_forall in T. specialize (T unit H). cbv beta in T. rewrite forallb_forall in T. apply T.
    unfold text_suffixes. apply in_flat_map. exists cmd. split; [exact H1|]. apply in_flat_map. exists sp. split; [exact H2|].
    apply in_flat_map. exists pl. split; [exact H3|]. apply in_map_iff. exists pw. split; [reflexivity|exact H4].
  - pose proof bare_table as T. rewrite forallb_forall in T. specialize (T unit H). cbv beta in T. rewrite forallb_forall in T. apply T.
    unfold bare_suffixes. apply in_flat_map. exists sp. split; [exact H2|]. apply in_flat_map. exists pl. split; [exact H3|].
    apply in_map_iff. exists pw. split; [reflexivity|exact H4].
  - pose proof glued_table as T. rewrite forallb_forall in T. specialize (T unit H). cbv beta in T. rewrite forallb_forall in T. apply T.
    unfold glued_suffixes. apply in_flat_map. exists pl. split; [exact H3|]. apply in_map_iff. exists pw. split; [reflexivity|exact H4].
Qed.
Lemma unit_dropped ints z unit s : (- 2 ^ 53 <= z <= 2 ^ 53)%Z -> unit_suffix unit s -> (100 <= Z.abs z)%Z \/ ~ In unit meridiems ->
  string_normalize ints (dec_Z z ++ s) = NStr (ints (dec_Z z)).
Proof.
  intros Hz Hs Hm. apply unit_suffix_ok in Hs. unfold suffix_ok in Hs. apply andb_true_iff in Hs. destruct Hs as [Hv Ht].
  apply int_suffix; [exact Hz|exact Hv|]. destruct Hm as [Hm|Hm]; [left; exact Hm|right]. apply orb_true_iff in Ht. destruct Ht as [Ht|Ht]; [exfalso|exact Ht].
  apply Hm. unfold is_meridiem in Ht. apply existsb_exists in Ht. destruct Ht as (x & Hx & E). apply str_eqb_eq in E. subst x. exact Hx.
Qed.
(** Whatever the units, two answers with the same number are equivalent. *)
Lemma units_conflated W n z x1 x2 s1 s2 : (- 2 ^ 53 <= z <= 2 ^ 53)%Z -> unit_suffix x1 s1 -> unit_suffix x2 s2 ->
  (100 <= Z.abs z)%Z \/ ~ In x1 meridiems /\ ~ In x2 meridiems ->
  forall st, is_equiv W (S n) (Some (dec_Z z ++ s1)) (Some (dec_Z z ++ s2)) st = (Ret true, st).
Proof.
  intros Hz H1 H2 Hm. apply (is_equiv_same_norm W n _ _ (int_str W (dec_Z z))).
  - apply (unit_dropped _ z x1); [exact Hz|exact H1|tauto].
  - apply (unit_dropped _ z x2); [exact Hz|exact H2|tauto].
Qed.
