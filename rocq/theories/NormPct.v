(** Percentages. *)
From Coq Require Import String List NArith ZArith QArith Bool Lia Arith.
From Verif Require Import UnicodeTables PyStr PyStrTheory NumTheory Regex RegexTheory Float64 FloatTheory Constants Normalize NormTheory NormNum.
Import ListNotations.
Local Open Scope N_scope.

(** ** Characters that occur in no float literal *)
Definition bad_cp (b : N) : Prop :=
  b < 128 /\ is_space b = false /\ is_ascii_digit b = false /\ ~ In b [43; 45; 46; 101; 69; 95] /\ lower_cp b = [b] /\
  ~ In b (u "infinity") /\ ~ In b (u "nan").
Lemma in_lower b s : lower_cp b = [b] -> In b s -> In b (lower s).
Proof. intros H Hin. unfold lower. apply in_flat_map. exists b. rewrite H. split; [exact Hin|left; reflexivity]. Qed.
Lemma span_digits_spec s : let (d, r) := span_digits s in s = d ++ r /\ forallb is_ascii_digit d = true.
Proof.
  induction s as [|c s IH]; cbn [span_digits]; [auto|]. destruct (is_ascii_digit c) eqn:E; [|auto].
  destruct (span_digits s) as [d r]. destruct IH as [-> Hd]. cbn. rewrite E, Hd. auto.
Qed.
Lemma not_in_digits b d : is_ascii_digit b = false -> forallb is_ascii_digit d = true -> ~ In b d.
Proof. intros H Hd Hin. rewrite forallb_forall in Hd. rewrite (Hd b Hin) in H. discriminate. Qed.
Lemma bad_exponent b s : bad_cp b -> In b s -> parse_exponent s = None.
Proof.
  intros (_ & _ & Hd & Ho & _) Hin. destruct s as [|c s1]; [contradiction|]. cbn [parse_exponent].
  destruct ((c =? 101) || (c =? 69)) eqn:E; [|reflexivity].
  assert (Hc : b <> c).
  { intros <-. apply Ho. apply orb_true_iff in E. destruct E as [E|E]; apply N.eqb_eq in E; rewrite E; cbn; auto 8. }
  destruct Hin as [Hin|Hin]; [congruence|].
  assert (G : forall (neg : bool) s2, In b s2 -> (let (d, r) := span_digits s2 in
      match d, r with
      | _ :: _, [] => Some (if neg then - Z.of_N (ascii_int d) else Z.of_N (ascii_int d))%Z
      | _, _ => None
      end) = None).
  { intros neg s2 H2. pose proof (span_digits_spec s2) as Sp. destruct (span_digits s2) as [d r]. destruct Sp as [-> Sd].
    destruct d; [reflexivity|]. destruct r; [|reflexivity]. exfalso. rewrite app_nil_r in H2. eapply not_in_digits; eauto. }
  destruct s1 as [|x t]; [contradiction|].
  destruct (N.eq_dec x 43) as [->|N1]; [apply (G false)|].
  { destruct Hin as [<-|Hin]; [exfalso; apply Ho; cbn; auto|exact Hin]. }
  destruct (N.eq_dec x 45) as [->|N2]; [apply (G true)|].
  { destruct Hin as [<-|Hin]; [exfalso; apply Ho; cbn; auto|exact Hin]. }
  assert (X : match x with 43 => (false, t) | 45 => (true, t) | _ => (false, x :: t) end = (false, x :: t)).
  { destruct x as [|p]; [reflexivity|]. do 6 (destruct p as [p|p|]; try reflexivity); contradiction. }
  rewrite X. apply (G false). exact Hin.
Qed.
Lemma bad_unsigned b neg s : bad_cp b -> In b s -> parse_unsigned neg s = None.
Proof.
  intros Hb Hin. pose proof Hb as (_ & _ & Hd & Ho & Hl & Hi & Hn). unfold parse_unsigned.
  pose proof (in_lower b s Hl Hin) as Hlow.
  assert (E1 : str_eqb (lower s) (u "inf") = false).
  { apply str_eqb_neq. intro E. rewrite E in Hlow. apply Hi. change (u "infinity") with (u "inf" ++ u "inity"). apply in_or_app. left; exact Hlow. }
  assert (E2 : str_eqb (lower s) (u "infinity") = false) by (apply str_eqb_neq; intro E; rewrite E in Hlow; contradiction).
  assert (E3 : str_eqb (lower s) (u "nan") = false) by (apply str_eqb_neq; intro E; rewrite E in Hlow; contradiction).
  rewrite E1, E2, E3. cbn [orb].
  pose proof (span_digits_spec s) as Sp. destruct (span_digits s) as [i r]. destruct Sp as [-> Si].
  apply in_app_or in Hin. destruct Hin as [Hin|Hin]; [exfalso; eapply not_in_digits; eauto|].
  assert (G : forall f r2, In b r2 -> match i ++ f with
     | [] => None
     | ds => match parse_exponent r2 with
             | Some e => Some (float_of_dec neg (ascii_int ds) (e - Z.of_nat (length f))%Z)
             | None => None end end = None).
  { intros f r2 H. rewrite (bad_exponent b r2 Hb H). destruct (i ++ f); reflexivity. }
  destruct r as [|x t]; [contradiction|]. destruct (N.eq_dec x 46) as [->|Nx].
  - assert (In b t) as Ht. { destruct Hin as [<-|H]; [exfalso; apply Ho; cbn; auto|exact H]. }
    pose proof (span_digits_spec t) as Sp. destruct (span_digits t) as [f r2]. destruct Sp as [-> Sf]. apply G.
    apply in_app_or in Ht. destruct Ht as [Ht|Ht]; [exfalso; eapply not_in_digits; eauto|exact Ht].
  - assert (G' : forall q : pystr * pystr, q = ([], x :: t) -> (let '(f, r2) := q in match i ++ f with
     | [] => None
     | ds => match parse_exponent r2 with
             | Some e => Some (float_of_dec neg (ascii_int ds) (e - Z.of_nat (length f))%Z)
             | None => None end end) = None).
    { intros q ->. apply G. exact Hin. }
    apply G'. destruct x as [|p]; [reflexivity|]. do 6 (destruct p as [p|p|]; try reflexivity); contradiction.
Qed.
Lemma drop_underscores_in b s : b <> 95 -> forall prev t, drop_underscores prev s = Some t -> In b s -> In b t.
Proof.
  intro Hb. induction s as [|c s IH]; intros prev t H Hin; [contradiction|]. cbn [drop_underscores] in H.
  destruct (N.eqb_spec c 95) as [->|Hc].
  - destruct (is_ascii_digit prev); [|discriminate]. destruct Hin as [Hin|Hin]; [congruence|eauto].
  - destruct (_ && _); [discriminate|]. destruct (drop_underscores c s) as [t'|] eqn:E; [|discriminate]. injection H as <-.
    destruct Hin as [->|Hin]; [left; reflexivity|right; eauto].
Qed.
Lemma bad_float b s : bad_cp b -> In b s -> py_float s = None.
Proof.
  intros Hb Hin. pose proof Hb as (H1 & H2 & Hd & Ho & _). unfold py_float.
  assert (Hm : In b (map to_ascii s)).
  { apply in_map_iff. exists b. split; [|exact Hin]. unfold to_ascii. apply N.ltb_lt in H1. rewrite H1. reflexivity. }
  assert (Hst : In b (strip (map to_ascii s))).
  { destruct (strip_by_spec is_space (map to_ascii s)) as (w1 & w2 & E & P1 & P2). rewrite E in Hm.
    rewrite forallb_forall in P1, P2.
    apply in_app_or in Hm. destruct Hm as [Hm|Hm]; [rewrite (P1 b Hm) in H2; discriminate|].
    apply in_app_or in Hm. destruct Hm as [Hm|Hm]; [exact Hm|rewrite (P2 b Hm) in H2; discriminate]. }
  destruct (drop_underscores 0 (strip (map to_ascii s))) as [t|] eqn:E; [|reflexivity].
  assert (Ht : In b t). { eapply drop_underscores_in; [|exact E|exact Hst]. intros ->. apply Ho. cbn. auto 8. }
  destruct t as [|x t]; [contradiction|].
  destruct (N.eq_dec x 43) as [->|N1]; [apply (bad_unsigned b); [exact Hb|]|].
  { destruct Ht as [<-|Ht]; [exfalso; apply Ho; cbn; auto|exact Ht]. }
  destruct (N.eq_dec x 45) as [->|N2]; [apply (bad_unsigned b); [exact Hb|]|].
  { destruct Ht as [<-|Ht]; [exfalso; apply Ho; cbn; auto|exact Ht]. }
  assert (X : match x with 43 => parse_unsigned false t | 45 => parse_unsigned true t | _ => parse_unsigned false (x :: t) end = parse_unsigned false (x :: t)).
  { destruct x as [|p]; [reflexivity|]. do 6 (destruct p as [p|p|]; try reflexivity); contradiction. }
  rewrite X. apply (bad_unsigned b); assumption.
Qed.
Ltac bad := unfold bad_cp; repeat match goal with |- _ /\ _ => split end; try reflexivity; let X := fresh in intro X; vm_compute in X; intuition discriminate.
Lemma float_chars x f b : py_float x = Some f -> In b [123; 124; 92; 37; 58; 44; 59; 33] -> ~ In b x.
Proof.
  intros H Hb Hin. enough (py_float x = None) by congruence. apply (bad_float b); [|exact Hin].
  cbn in Hb. repeat (destruct Hb as [<-|Hb]; [bad|]). contradiction.
Qed.

(** ** [s] is [x] with percent signs inserted, each possibly preceded by a backslash *)
Inductive marked : pystr -> pystr -> Prop :=
| marked_nil : marked [] []
| marked_chr c x s : c <> 37 -> c <> 92 -> marked x s -> marked (c :: x) (c :: s)
| marked_pct x s : marked x s -> marked x (37 :: s)
| marked_esc x s : marked x s -> marked x (92 :: 37 :: s).

Lemma marked_in x s c : marked x s -> In c s -> In c x \/ c = 37 \/ c = 92.
Proof.
  induction 1 as [|d x s N1 N2 M IH|x s M IH|x s M IH]; cbn; intro H; auto.
  - destruct H as [->|H]; [auto|]. destruct (IH H); auto.
  - destruct H as [<-|H]; auto.
  - destruct H as [<-|[<-|H]]; auto.
Qed.
Lemma marked_head x s : marked x s -> starts_with [92; 92] s = false /\ (starts_with [92] s = true -> starts_with [92; 37] s = true).
Proof.
  induction 1 as [|d x s N1 N2 M IH|x s M IH|x s M IH]; cbn [starts_with].
  - split; [reflexivity|discriminate].
  - assert (92 =? d = false) as -> by (apply N.eqb_neq; congruence). split; [reflexivity|discriminate].
  - split; [reflexivity|discriminate].
  - split; [destruct s; reflexivity|]. destruct s; reflexivity.
Qed.
Lemma marked_matrix x s q : marked x s -> replace [92; 92] q s = s.
Proof.
  unfold replace. induction 1 as [|d x s N1 N2 M IH|x s M IH|x s M IH]; [reflexivity| | |]; cbn [replace_go].
  - rewrite (proj1 (marked_head _ _ (marked_chr d x s N1 N2 M))), IH. reflexivity.
  - rewrite (proj1 (marked_head _ _ (marked_pct x s M))), IH. reflexivity.
  - rewrite (proj1 (marked_head _ _ (marked_esc x s M))). cbn [starts_with]. change (92 =? 37) with false. cbn [andb]. rewrite IH. reflexivity.
Qed.
(** After the first replacement: no more backslashes *)
Inductive marked1 : pystr -> pystr -> Prop :=
| marked1_nil : marked1 [] []
| marked1_chr c x s : c <> 37 -> marked1 x s -> marked1 (c :: x) (c :: s)
| marked1_pct x s : marked1 x s -> marked1 x (37 :: s).
Lemma marked_replace x s : marked x s -> marked1 x (replace [92; 37] [37] s).
Proof.
  unfold replace. induction 1 as [|d x s N1 N2 M IH|x s M IH|x s M IH]; [constructor| | |]; cbn [replace_go starts_with].
  - assert (92 =? d = false) as -> by (apply N.eqb_neq; congruence). cbn [andb]. constructor; assumption.
  - change (92 =? 37) with false. cbn [andb]. constructor; assumption.
  - change (92 =? 92) with true. change (37 =? 37) with true. cbn [andb]. cbn [length Nat.sub app replace_go]. constructor; exact IH.
Qed.
Lemma marked1_replace x s : marked1 x s -> replace [37] [] s = x.
Proof.
  unfold replace. induction 1 as [|d x s N1 M IH|x s M IH]; [reflexivity| |]; cbn [replace_go starts_with].
  - assert (37 =? d = false) as -> by (apply N.eqb_neq; congruence). cbn [andb]. rewrite IH. reflexivity.
  - change (37 =? 37) with true. cbn [andb length Nat.sub app]. exact IH.
Qed.

Lemma marked_drop_left w s x : forallb (N.eqb 32) w = true -> marked x (w ++ s) -> exists x', x = w ++ x' /\ marked x' s.
Proof.
  revert x; induction w as [|c w IH]; intros x Hw M; [exists x; split; [reflexivity|exact M]|]. cbn [forallb app] in *. apply andb_true_iff in Hw. destruct Hw as [Hc Hw].
  apply N.eqb_eq in Hc. subst c. inversion M as [|d y t N1 N2 M'| |]; subst. destruct (IH _ Hw M') as (x' & -> & Hx). eauto.
Qed.
Lemma marked_drop_right w : forallb (N.eqb 32) w = true -> forall x t, marked x t -> forall s, t = s ++ w -> exists x', x = x' ++ w /\ marked x' s.
Proof.
  intros Hw. assert (Sp : forall c, In c w -> c = 32). { intros c Hc. rewrite forallb_forall in Hw. apply Hw, N.eqb_eq in Hc. congruence. }
  assert (Self : marked w w). { clear Hw. induction w as [|c w IH]; constructor; try (rewrite (Sp c) by (left; reflexivity); discriminate).
    apply IH. intros d Hd. apply Sp. right; exact Hd. }
  induction 1 as [|d x t N1 N2 M IH|x t M IH|x t M IH]; intros s E.
  - symmetry in E. apply app_eq_nil in E. destruct E as [-> ->]. exists []. split; [reflexivity|constructor].
  - destruct s as [|c s].
    + exists []. cbn in E. subst w. split; [|constructor]. cbn [app]. f_equal.
      clear - M Sp. assert (forall c, In c t -> c = 32) by (intros; apply Sp; right; assumption). clear Sp.
      induction M as [|e y r E1 E2 M IH|y r M IH|y r M IH]; [reflexivity| | |].
      * f_equal. apply IH. intros c Hc. apply H. right; exact Hc.
      * specialize (H 37 (or_introl eq_refl)). discriminate.
      * specialize (H 92 (or_introl eq_refl)). discriminate.
    + injection E as <- ->. destruct (IH s eq_refl) as (x' & -> & Hx). exists (d :: x'). split; [reflexivity|]. constructor; assumption.
  - destruct s as [|c s]; [cbn in E; specialize (Sp 37); rewrite <- E in Sp; specialize (Sp (or_introl eq_refl)); discriminate|].
    injection E as <- ->. destruct (IH s eq_refl) as (x' & -> & Hx). exists x'. split; [reflexivity|]. constructor; assumption.
  - destruct s as [|c s]; [cbn in E; specialize (Sp 92); rewrite <- E in Sp; specialize (Sp (or_introl eq_refl)); discriminate|].
    injection E as <- E. destruct s as [|c s]; [cbn in E; specialize (Sp 37); rewrite <- E in Sp; specialize (Sp (or_introl eq_refl)); discriminate|].
    injection E as <- ->. destruct (IH s eq_refl) as (x' & -> & Hx). exists x'. split; [reflexivity|]. constructor; assumption.
Qed.
Lemma spaces_space w : forallb (N.eqb 32) w = true -> forallb is_space (map to_ascii w) = true.
Proof.
  intro H. rewrite forallb_forall in *. intros c Hc. apply in_map_iff in Hc. destruct Hc as (d & <- & Hd). apply H, N.eqb_eq in Hd. subst d. reflexivity.
Qed.
Lemma py_float_pad w1 x w2 : forallb (N.eqb 32) w1 = true -> forallb (N.eqb 32) w2 = true -> py_float (w1 ++ x ++ w2) = py_float x.
Proof.
  intros H1 H2. unfold py_float. rewrite !map_app. unfold strip. rewrite strip_by_pad by (apply spaces_space; assumption). reflexivity.
Qed.
Lemma marked_strip x s : marked x s -> exists x', marked x' (strip_sp s) /\ py_float x' = py_float x.
Proof.
  intro M. destruct (strip_by_spec (N.eqb 32) s) as (w1 & w2 & E & P1 & P2). unfold strip_sp in *. rewrite E in M.
  apply marked_drop_left in M; [|exact P1]. destruct M as (x1 & -> & M).
  destruct (marked_drop_right w2 P2 _ _ M _ eq_refl) as (x2 & -> & M2). exists x2. split; [exact M2|].
  symmetry. apply py_float_pad; assumption.
Qed.
Lemma strip_keeps s : In 37 s -> In 37 (strip_sp s).
Proof.
  intro H. destruct (strip_by_spec (N.eqb 32) s) as (w1 & w2 & E & P1 & P2). rewrite E in H. rewrite forallb_forall in P1, P2.
  apply in_app_or in H. destruct H as [H|H]; [apply P1 in H; discriminate|]. apply in_app_or in H. destruct H as [H|H]; [exact H|apply P2 in H; discriminate].
Qed.
(** A base-b numeral contains no percent sign. *)
Lemma base_no_pct s : In 37 s -> re_search base_re s = None.
Proof.
  intro Hin. rewrite anchored_search by reflexivity. apply match_at_none. destruct (matches base_re (MSt [] s [])) as [|st l] eqn:E; [reflexivity|].
  exfalso. assert (H : In st (matches base_re (MSt [] s []))) by (rewrite E; left; reflexivity). clear E. unfold base_re in H.
  rewrite in_rseq_cons in H. destruct H as (s1 & H1 & H). apply in_bol in H1. destruct H1 as [_ ->].
  rewrite in_rseq_cons in H. destruct H as (s2 & H1 & H). apply in_grp in H1. destruct H1 as (s3 & w & H1 & E & ->).
  apply in_plus_chr in H1. destruct H1 as (w' & r & E' & Hw & Hw' & ->). cbn [after before caps] in *.
  rewrite in_rseq_cons in H. destruct H as (s4 & H1 & H). apply in_chr in H1. destruct H1 as (c & r' & -> & Hc & ->).
  cbn [cls_in] in Hc. apply N.eqb_eq in Hc. subst c.
  assert (D : forall w0, forallb (cls_in CDigit) w0 = true -> ~ In 37 w0).
  { intros w0 H0 H1. rewrite forallb_forall in H0. apply H0 in H1. discriminate H1. }
  rewrite in_rseq_cons in H. destruct H as (s5 & H1 & H). rewrite in_rseq_cons in H. destruct H as (s6 & H2 & _).
  destruct s5 as [b5 a5 c5]. apply in_eol in H2. destruct H2 as [Hend _].
  assert (Ha : ~ In 37 a5). { destruct a5 as [|x [|y a5]]; cbn [at_end] in Hend; [intros []| |discriminate]. apply N.eqb_eq in Hend. subst x. intros [X|[]]. discriminate. }
  subst s. apply in_app_or in Hin. destruct Hin as [Hin|Hin]; [eapply D; eauto|]. destruct Hin as [Hin|Hin]; [discriminate|].
  apply in_alt in H1. destruct H1 as [H1|H1].
  - apply in_grp in H1. destruct H1 as (s7 & v & H1 & Ev & E5). apply in_chr in H1. destruct H1 as (c & r2 & -> & Hc & ->).
    injection E5 as -> -> ->. cbn [after] in *. destruct Hin as [->|Hin]; [discriminate Hc|contradiction].
  - rewrite in_rseq_cons in H1. destruct H1 as (s7 & H1 & H2). apply in_chr in H1. destruct H1 as (c & r2 & -> & Hc & ->).
    rewrite in_rseq_cons in H2. destruct H2 as (s8 & H1 & H2). apply in_grp in H1. destruct H1 as (s9 & v & H1 & Ev & ->).
    apply in_plus_chr in H1. destruct H1 as (w'' & r3 & -> & _ & Hw'' & ->). cbn [after before caps] in *.
    rewrite in_rseq_cons in H2. destruct H2 as (s10 & H1 & H2). apply in_chr in H1. destruct H1 as (c' & r' & -> & Hc' & ->).
    apply in_rseq_nil in H2. injection H2 as -> -> ->. cbn [cls_in] in Hc, Hc'. apply N.eqb_eq in Hc, Hc'. subst c c'.
    destruct Hin as [Hin|Hin]; [discriminate|]. apply in_app_or in Hin. destruct Hin as [Hin|Hin]; [eapply D; eauto|].
    destruct Hin as [Hin|Hin]; [discriminate|contradiction].
Qed.

Lemma normalize_pct ints x s f : marked x s -> In 37 s -> py_float x = Some f ->
  string_normalize ints s = NSet [float_str (div100 f); float_str f].
Proof.
  intros M0 Hin0 Hf0. destruct (marked_strip x s M0) as (x' & M & Ef). rewrite Hf0 in Ef. rename Ef into Hf.
  pose proof (strip_keeps s Hin0) as Hin. set (t := strip_sp s) in *.
  assert (No : forall b, In b [123; 124; 58; 44; 59; 33] -> ~ In b t).
  { intros b Hb H. destruct (marked_in x' t b M H) as [H'|H'].
    - eapply (float_chars x' f b Hf); [|exact H']. cbn in Hb |- *. intuition.
    - destruct H' as [->| ->]; cbn in Hb; intuition discriminate. }
  assert (Hm : str_matrix_normalize t = t).
  { unfold str_matrix_normalize.
    assert (C : forall p, In 123 p -> contains p t = false).
    { intros p Hp. destruct (contains p t) eqn:E; [|reflexivity]. exfalso. apply contains_spec in E. destruct E as (a & b & E).
      apply (No 123); [cbn; auto|]. rewrite E. apply in_or_app; right. apply in_or_app; left. exact Hp. }
    rewrite (C (u "{cases}")), (C (u "{array}")) by (vm_compute; auto).
    destruct (negb _); [|reflexivity]. apply (marked_matrix x' t); exact M. }
  assert (W : re_search text_wrap_re t = None).
  { apply (search_none_lit 123); [vm_compute; reflexivity|]. apply No. cbn; auto. }
  assert (B : re_search set_builder_re t = None).
  { apply (search_none_lit 124); [vm_compute; reflexivity|]. apply No. cbn; auto. }
  assert (R : string_normalize ints s = norm_tail ints t).
  { unfold string_normalize. destruct (2 * length s)%nat; cbn [norm_fuel]; fold t; rewrite Hm, W, B; reflexivity. }
  rewrite R. unfold norm_tail.
  assert (Hdel : del_tex_space t = t).
  { unfold del_tex_space, re_del, re_sub.
    rewrite (sub_id_lit 58 (rs "\:") _ t) by ((vm_compute; reflexivity) || (apply No; cbn; tauto)).
    rewrite (sub_id_lit 44 (rs "\,") _ t) by ((vm_compute; reflexivity) || (apply No; cbn; tauto)).
    rewrite (sub_id_lit 59 (rs "\;") _ t) by ((vm_compute; reflexivity) || (apply No; cbn; tauto)).
    rewrite (sub_id_lit 33 (rs "\!") _ t) by ((vm_compute; reflexivity) || (apply No; cbn; tauto)).
    apply (sub_id_lit 44); [vm_compute; reflexivity|apply No; cbn; tauto]. }
  rewrite Hdel, base_no_pct by exact Hin.
  assert (contains (u "%") t = true) as -> by (apply contains_single; exact Hin).
  change (u "\%") with [92; 37]. change (u "%") with [37].
  rewrite (marked1_replace x' _ (marked_replace x' t M)), Hf. reflexivity.
Qed.
