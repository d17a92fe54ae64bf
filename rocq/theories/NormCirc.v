(** Whole numbers of degrees (/repo/math_evaluation/core/latex_normalize.py:366-379). *)
From Coq Require Import String List NArith ZArith Bool Lia.
From Verif Require Import UnicodeTables PyStr PyStrTheory NumTheory Regex RegexTheory RegexFirst Float64 FloatTheory Constants
  Normalize NormTheory NormNum NormMixed NormTime NormShape NormUnits NormDollar Arith LatexForm Spec Monad MonadTheory Eval EvalTheory EvalTheory2.
Import ListNotations.
Local Open Scope N_scope.

(** ** Specification *)
Definition degree_signs : list pystr := [u "^\circ"; u "^{\circ}"; u "^ \circ"; u "^{ \circ }"].
(** [z] half-turns over 180 *)
Definition in_radians (z : Z) : pystr := dec_Z z ++ u "/180*\pi".

Definition circ_cp : N -> bool := digits_and (u "-^{}\circ ").
Definition radian_cp : N -> bool := digits_and (u "-/*\pi").
Lemma radian_inert : inert radian_cp = true.
Proof. vm_compute. reflexivity. Qed.
Lemma signs_inside : forallb (forallb circ_cp) degree_signs = true.
Proof. vm_compute. reflexivity. Qed.
Lemma signs_steps : forallb (fun s => str_eqb (del_tex_space s) s && str_eqb (rewrite_words s) s && str_eqb (del_units s) s && str_eqb (re_del circ_re s) []) degree_signs = true.
Proof. vm_compute. reflexivity. Qed.
Lemma int_circ_cp P : forallb int_cp P = true -> forallb circ_cp P = true.
Proof. apply digits_and_sub. vm_compute. reflexivity. Qed.

Section Degrees.
Variable P s : pystr.
Hypothesis Hne : P <> [].
Hypothesis HP : forallb int_cp P = true.
Hypothesis Hs : In s degree_signs.
Lemma whole_cp : forallb circ_cp (P ++ s) = true.
Proof. rewrite forallb_app, int_circ_cp by exact HP. pose proof signs_inside as T. rewrite forallb_forall in T. apply T, Hs. Qed.
Lemma degrees_tail ints : string_normalize ints (P ++ s) = norm_circ ints (P ++ s).
Proof.
  pose proof signs_steps as T. rewrite forallb_forall in T. specialize (T s Hs). rewrite !andb_true_iff, !str_eqb_eq in T. destruct T as [[[T1 T2] T3] _].
  pose proof whole_cp as A. destruct (int_head P s Hne HP) as (c & r & Ec & Hc).
  assert (Hp : prepared (P ++ s) = P ++ s).
  { unfold prepared. assert (strip_sp (P ++ s) = P ++ s) as ->.
    { apply strip_by_id.
      - rewrite Ec. apply N.eqb_neq. intros <-. discriminate Hc.
      - rewrite rev_app_distr. destruct Hs as [<-|[<-|[<-|[<-|[]]]]]; reflexivity. }
    unfold str_matrix_normalize. rewrite (alpha_contains circ_cp (u "{cases}")), (alpha_contains circ_cp (u "{array}")) by (reflexivity || exact A).
    match goal with |- (if ?b then _ else _) = _ => destruct b end; [|reflexivity]. apply replace_absent. rewrite contains_skip by (reflexivity || exact HP).
    destruct Hs as [<-|[<-|[<-|[<-|[]]]]]; reflexivity. }
  rewrite normalize_step, Hp.
  rewrite (alpha_search circ_cp text_wrap_re), (alpha_search circ_cp set_builder_re) by (exact A || (vm_compute; reflexivity)).
  unfold norm_tail. cbv zeta. rewrite (tex_space_prefix P HP), T1. rewrite (alpha_search circ_cp base_re) by (exact A || (vm_compute; reflexivity)).
  rewrite (alpha_contains circ_cp (u "%")) by (reflexivity || exact A). rewrite (words_prefix P HP), T2. unfold str_to_time_list.
  rewrite (alpha_search circ_cp time_re1), (alpha_search circ_cp time_re2) by (exact A || (vm_compute; reflexivity)).
  rewrite (units_prefix P HP), T3. reflexivity.
Qed.
Lemma sign_found : re_test circ_re (P ++ s) = true.
Proof. rewrite (search_prefix int_cp) by (reflexivity || exact HP). destruct Hs as [<-|[<-|[<-|[<-|[]]]]]; reflexivity. Qed.
Lemma sign_dropped : re_del circ_re (P ++ s) = P.
Proof.
  pose proof signs_steps as T. rewrite forallb_forall in T. specialize (T s Hs). rewrite !andb_true_iff, !str_eqb_eq in T. destruct T as [_ T].
  unfold re_del in *. rewrite (re_sub_prefix int_cp) by (reflexivity || exact HP). rewrite T. apply app_nil_r.
Qed.
End Degrees.

(** ** The second reading *)
Lemma no_number_here t pre : match_at circ_num_re pre (45 :: t) = None.
Proof.
  destruct (match_at circ_num_re pre (45 :: t)) as [st|] eqn:E; [exfalso|reflexivity]. apply hd_error_in in E. unfold circ_num_re in E.
  apply in_rseq_cons in E. destruct E as (st1 & H1 & E). apply in_grp in H1. destruct H1 as (st0 & w & H1 & Ew & ->). apply in_star_chr in H1. destruct H1 as (x & s1 & Ex & Hx & ->).
  assert (x = [] /\ s1 = 45 :: t) as [-> ->].
  { destruct x as [|y x]; [split; [reflexivity|exact (eq_sym Ex)]|]. injection Ex as <- _. discriminate Hx. }
  cbn [after before caps rev app] in *. apply in_rseq_cons in E. destruct E as (st2 & H2 & E). apply in_opt in H2. destruct H2 as [H2| ->].
  - apply in_grp in H2. destruct H2 as (st3 & w3 & H2 & _). apply in_rseq_cons in H2. destruct H2 as (st4 & H2 & _). apply in_chr in H2. destruct H2 as (y & s2 & Ey & Hy & _). injection Ey as <- _. discriminate Hy.
  - apply in_rseq_cons in E. destruct E as (st3 & H3 & E). apply in_star_chr in H3. destruct H3 as (x & s1 & Ex' & Hx' & ->).
    assert (x = [] /\ s1 = 45 :: t) as [-> ->].
    { destruct x as [|y x]; [split; [reflexivity|exact (eq_sym Ex')]|]. injection Ex' as <- _. discriminate Hx'. }
    apply in_rseq_cons in E. destruct E as (st4 & E & _). unfold circ_tail in E. apply in_rseq_cons in E. destruct E as (st5 & E & _). apply in_chr in E. destruct E as (y & s2 & Ey & Hy & _). injection Ey as <- _. discriminate Hy.
Qed.
Definition radian_piece : list piece := [PGrp 1; PGrp 2; PLit (u "/180*\pi")].
Lemma number_here D s pre : numeral D -> In s degree_signs -> sub_go circ_num_re (fun _ cs => expand radian_piece cs) O pre (D ++ s) = D ++ u "/180*\pi".
Proof.
  intros [F Ne] Hs.
  assert (M : match_at circ_num_re pre (D ++ s) = Some (MSt (rev s ++ rev D ++ pre) [] [(1%nat, D)])).
  { apply fm_match_at. unfold circ_num_re. change (rseq [RGrp 1 (RStarG digit); ROpt (RGrp 2 (rseq [lit 46; RPlus digit])); RStarG sp; circ_tail]) with
      (RSeq (RGrp 1 (RStarG digit)) (rseq [ROpt (RGrp 2 (rseq [lit 46; RPlus digit])); RStarG sp; circ_tail])).
    eapply fm_seq.
    - apply fm_grp. apply (fm_run CDigit pre D s []).
      + apply forallb_forall. intros c Hc. rewrite Forall_forall in F. specialize (F c Hc). ten c F; reflexivity.
      + destruct Hs as [<-|[<-|[<-|[<-|[]]]]]; reflexivity.
    - destruct Hs as [<-|[<-|[<-|[<-|[]]]]]; reflexivity. }
  assert (E : D ++ s = (D ++ s) ++ []) by (rewrite app_nil_r; reflexivity). rewrite E. rewrite E in M.
  rewrite (sub_go_match circ_num_re _ pre (D ++ s) [] _ M eq_refl); [|destruct D; [congruence|discriminate]].
  cbn [sub_go]. rewrite app_nil_r. unfold radian_piece, expand. cbn [flat_map caps]. change (group 1 [(1%nat, D)]) with (Some D). change (group 2 [(1%nat, D)]) with (@None pystr). rewrite app_nil_r. reflexivity.
Qed.
Lemma dec_split z : exists neg D, dec_Z z = sign neg ++ D /\ numeral D /\ (neg = true -> (z < 0)%Z).
Proof.
  destruct z as [|p|p].
  - exists false, (u "0"). split; [reflexivity|]. split; [|discriminate]. split; [repeat constructor; vm_compute; discriminate|discriminate].
  - exists false, (dec_N (Npos p)). split; [reflexivity|]. split; [|discriminate]. split; apply dec_N_spec.
  - exists true, (dec_N (Npos p)). split; [reflexivity|]. split; [|intros _; reflexivity]. split; apply dec_N_spec.
Qed.
Lemma radians_here z s : In s degree_signs -> re_sub circ_num_re radian_piece (dec_Z z ++ s) = in_radians z.
Proof.
  intro Hs. unfold in_radians. destruct (dec_split z) as (neg & D & -> & ND & _). unfold re_sub, re_sub_fun. destruct neg; cbn [sign app].
  - rewrite sub_go_none by apply no_number_here. f_equal. apply number_here; assumption.
  - apply number_here; assumption.
Qed.
(** it is in normal form *)
Definition radian_expr (neg : bool) (D : pystr) : arith := Bin Star (Bin Slash (if neg then Neg (Num D) else Num D) (Num (u "180"))) Pi.
Lemma radians_normal ints z : further ints (in_radians z) = in_radians z.
Proof.
  destruct (dec_split z) as (neg & D & E & ND & _).
  assert (N180 : numeral (u "180")) by (split; [repeat constructor; vm_compute; discriminate|discriminate]).
  assert (T : tight (radian_expr neg D) = in_radians z).
  { unfold in_radians. rewrite E. destruct neg; unfold tight, radian_expr; cbn; rewrite <- ?app_assoc; reflexivity. }
  assert (W : wf (radian_expr neg D)) by (destruct neg; cbn; tauto).
  assert (PL : plain (radian_expr neg D)) by (destruct neg; cbn; repeat split; discriminate).
  pose proof (tight_normal ints (radian_expr neg D) W PL ltac:(destruct neg; reflexivity)) as X. rewrite T in X.
  assert (A : forallb radian_cp (in_radians z) = true).
  { unfold in_radians. rewrite forallb_app. assert (forallb radian_cp (dec_Z z) = true) as ->; [|reflexivity].
    assert (I : forallb int_cp (dec_Z z) = true) by (rewrite E, forallb_app, (digits_and_digit [45] D (proj1 ND) : forallb int_cp D = true); destruct neg; reflexivity).
    revert I. apply digits_and_sub. vm_compute. reflexivity. }
  rewrite (inert_normalize radian_cp radian_inert _ A) in X.
  - injection X as X. exact X.
  - unfold in_radians. rewrite E. rewrite <- app_assoc. assert (Y : contains [92; 92] (u "/180*\pi") = false) by reflexivity.
    rewrite app_assoc, (contains_skip [92; 92]); [exact Y|reflexivity|]. rewrite forallb_app, (digits_and_digit [45] D (proj1 ND) : forallb int_cp D = true). destruct neg; reflexivity.
  - apply strip_sp_id. apply (alpha_not_in radian_cp); [reflexivity|exact A].
Qed.
Theorem degrees_read ints z s : (- 2 ^ 53 <= z <= 2 ^ 53)%Z -> In s degree_signs ->
  string_normalize ints (dec_Z z ++ s) = NSet [ints (dec_Z z); in_radians z].
Proof.
  intros Hz Hs. assert (I : forallb int_cp (dec_Z z) = true).
  { destruct (dec_split z) as (neg & D & E & ND & _). rewrite E, forallb_app, (digits_and_digit [45] D (proj1 ND) : forallb int_cp D = true). destruct neg; reflexivity. }
  rewrite degrees_tail by (exact I || exact Hs || apply dec_Z_ne). unfold norm_circ. rewrite sign_found by assumption. rewrite sign_dropped by assumption.
  rewrite (radians_here z s Hs : re_sub circ_num_re [PGrp 1; PGrp 2; PLit (u "/180*\pi")] (dec_Z z ++ s) = in_radians z), radians_normal.
  pose proof (int_circ ints z Hz) as C. assert (Ha : forallb num_cp (dec_Z z) = true) by apply plain_num_digits, dec_Z_plain.
  rewrite (inert_circ num_cp num_inert _ Ha) in C. injection C as ->. reflexivity.
Qed.

Theorem degrees_verdict W n z s b (v : pystr -> pystr -> bool) st : (- 2 ^ 53 <= z <= 2 ^ 53)%Z -> In s degree_signs ->
  ~ equal_up_to_padding is_space (dec_Z z ++ s) b ->
  (forall x y, x = int_str W (dec_Z z) \/ x = in_radians z -> reading_of y (string_normalize (int_str W) b) ->
               pure_to (is_latex_equiv W (is_equiv_str W n) x y) (v x y)) ->
  fst (is_equiv W (S n) (Some (dec_Z z ++ s)) (Some b) st) = Ret true <->
    exists y, reading_of y (string_normalize (int_str W) b) /\ (v (int_str W (dec_Z z)) y = true \/ v (in_radians z) y = true).
Proof.
  intros Hz Hs Hb Hv. pose proof (degrees_read (int_str W) z s Hz Hs) as N.
  rewrite (is_equiv_readings W n (dec_Z z ++ s) b v Hb).
  - rewrite N. cbn [reading_of In]. split.
    + intros (x & y & [<-|[<-|[]]] & Hy & E); exists y; tauto.
    + intros (y & Hy & [E|E]); [exists (int_str W (dec_Z z)), y|exists (in_radians z), y]; tauto.
  - left. rewrite N. exact I.
  - rewrite N. cbn [reading_of In]. intros x y Hx Hy. apply Hv; [destruct Hx as [<-|[<-|[]]]; auto|exact Hy].
Qed.
