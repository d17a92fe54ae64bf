(** Mixed numbers. *)
From Coq Require Import String List NArith ZArith QArith Bool Lia Arith.
From Verif Require Import UnicodeTables PyStr PyStrTheory NumTheory Regex RegexTheory Float64 FloatTheory Constants Normalize NormTheory RegexFirst NormNum.
Import ListNotations.
Local Open Scope N_scope.
Local Arguments N.eqb : simpl never.

(** ** Specification: the value of a sum of signed numbers, quotients and \frac{.}{.} *)
Definition nat_value (ds : pystr) : Q := inject_Z (Z.of_N (dec_value ds)).
Definition quotient (a b : pystr) : option Q :=
  match a, b with
  | [], _ | _, [] => None
  | _, _ => Some (nat_value a / nat_value b)%Q
  end.
(** One braced or single-digit argument of \frac *)
Definition arg_value (s : pystr) : pystr * pystr :=
  match s with
  | 123 :: s' => let (d, r) := span_digits s' in match r with 125 :: r' => (d, r') | _ => ([], r) end
  | c :: s' => if is_ascii_digit c then ([c], s') else ([], s)
  | [] => ([], [])
  end.
Definition term_value (s : pystr) : option Q * pystr :=
  if starts_with (u "\frac") s then
    let (a, r) := arg_value (skipn 5 s) in
    let (b, r') := arg_value r in (quotient a b, r')
  else
    let (a, r) := span_digits s in
    match r with
    | 47 :: r' => let (b, r'') := span_digits r' in (quotient a b, r'')
    | _ => (match a with [] => None | _ => Some (nat_value a) end, r)
    end.
Definition take_sign (s : pystr) : bool * pystr := match s with 45 :: t => (true, t) | _ => (false, s) end.
Fixpoint sum_value (fuel : nat) (s : pystr) : option Q :=
  match fuel with
  | O => None
  | S fuel' =>
    let (neg, s) := take_sign s in
    let (v, r) := term_value s in
    match v with
    | None => None
    | Some q =>
      let q := if neg : bool then (- q)%Q else q in
      match r with
      | [] => Some q
      | 43 :: r' => match sum_value fuel' r' with Some q' => Some (q + q')%Q | None => None end
      | _ => None
      end
    end
  end.
Definition expr_value (s : pystr) : option Q := sum_value (S (length s)) s.

Definition sign (neg : bool) : pystr := if neg then [45] else [].
Definition spaces (k : nat) : pystr := repeat 32 k.
Definition signed (neg : bool) (q : Q) : Q := if neg then (- q)%Q else q.

Lemma spaces_sp k : forallb (cls_in (CLit 32)) (spaces k) = true.
Proof. apply forallb_forall. intros c Hc. apply repeat_spec in Hc. subst. reflexivity. Qed.

Lemma further_steps ints s e1 e2 e3 e4 e5 :
  starts_with [123] s = false -> norm_int s = s -> (if contains [bslash] s then parse_latex s else s) = e1 ->
  re_sub (RSeq (lit 45) (RStarG sp)) [PLit (u "-")] e1 = e2 -> inject_mixed e2 = e3 -> replace [32] [] e3 = e4 -> lower e4 = e5 ->
  further ints s = if str_is_int e5 then ints e5 else e5.
Proof. intros H1 H2 H3 H4 H5 H6 H7. unfold further. rewrite H1. cbn [andb]. cbv zeta. rewrite H2, H3, H4, H5, H6, H7. reflexivity. Qed.

(** Alphabet of the inputs *)
Definition mix_cp : N -> bool := digits_and (u " /-\frac{}").
Lemma mix_inert : inert mix_cp = true.
Proof. vm_compute. reflexivity. Qed.
Lemma mix_lower c : digits_and (u "+-/\frac{}") c = true -> lower_cp c = [c].
Proof.
  revert c. apply (digits_and_cases _ (fun c => lower_cp c = [c])); [exact lower_digit|].
  repeat (constructor; [vm_compute; reflexivity|]). constructor.
Qed.

Lemma first_space_free c s : ascii_digit c -> match c :: s with [] => True | x :: _ => N.eqb 32 x = false end.
Proof. unfold ascii_digit. intro H. apply N.eqb_neq. lia. Qed.
Lemma last_of {A} (P : A -> Prop) (s : list A) x : P x -> match rev (s ++ [x]) with [] => True | y :: _ => P y end.
Proof. intro H. rewrite rev_app_distr. exact H. Qed.

Section Mixed.
Variable neg : bool.
Variables A tail : pystr.   (* the integer part and what follows it *)
Hypothesis FA : Forall ascii_digit A.
Hypothesis NA : A <> [].

Lemma minus_keep : ~ In 45 tail ->
  re_sub (RSeq (lit 45) (RStarG sp)) [PLit (u "-")] (sign neg ++ A ++ tail) = sign neg ++ A ++ tail.
Proof.
  intros H. assert (N45 : ~ In 45 (A ++ tail)).
  { intro Hin. apply in_app_or in Hin. destruct Hin as [Hin|Hin]; [|contradiction].
    rewrite Forall_forall in FA. apply FA in Hin. unfold ascii_digit in Hin. lia. }
  destruct neg; cbn [sign app].
  - change (45 :: A ++ tail) with ([45] ++ (A ++ tail)). unfold re_sub.
    destruct A as [|a A']; [contradiction|]. inversion FA as [|? ? Ha FA']; subst.
    rewrite (sub_first _ _ [45] ((a :: A') ++ tail) (MSt [45] ((a :: A') ++ tail) [])).
    + cbn [expand flat_map app]. change (u "-") with [45]. cbn [app]. f_equal.
      apply sub_go_id_den. intros w Hw _ Hd. apply N45. eapply infix_in; [exact Hw|]. eapply (needs_lit_sound 45); [|exact Hd]. reflexivity.
    + apply fm_match_at. eapply fm_seq; [apply fm_chr; reflexivity|]. apply fm_run_nil. cbn. unfold ascii_digit in Ha. apply N.eqb_neq. lia.
    + reflexivity.
    + discriminate.
  - apply (sub_id_lit 45); [reflexivity|exact N45].
Qed.

Lemma not_float : tail <> [] -> ends_number tail -> forallb (fun c => c <? 128) tail = true -> ~ In 95 tail ->
  (match rev tail with [] => True | c :: _ => is_space c = false end) ->
  py_float (sign neg ++ A ++ tail) = None.
Proof.
  intros Ht He Hasc H95 Hl. destruct A as [|a A'] eqn:EA; [contradiction|]. inversion FA as [|? ? Ha FA']; subst.
  assert (P : parse_unsigned neg (a :: A' ++ tail) = None) by (apply parse_unsigned_junk; assumption).
  assert (D : forallb (fun c => c <? 128) (a :: A') = true).
  { apply forallb_forall. intros c Hc. rewrite Forall_forall in FA. apply FA in Hc. unfold ascii_digit in Hc. apply N.ltb_lt. lia. }
  assert (L : forall p, match rev (p ++ (a :: A') ++ tail) with [] => True | c :: _ => is_space c = false end).
  { intro p. rewrite !rev_app_distr. destruct (rev tail) as [|x t] eqn:E; [|exact Hl].
    apply (f_equal (@rev N)) in E. rewrite rev_involutive in E. contradiction. }
  rewrite py_float_ends.
  - destruct neg; cbn [sign app].
    + exact P.
    + rewrite read_signed_digit by exact Ha. exact P.
  - rewrite !forallb_app, D, Hasc. destruct neg; reflexivity.
  - rewrite !in_app_iff. intros [H|[H|H]]; [destruct neg; cbn in H; intuition discriminate| |contradiction].
    rewrite Forall_forall in FA. apply FA in H. unfold ascii_digit in H. lia.
  - destruct neg; cbn [sign app]; [reflexivity|]. ten a Ha; reflexivity.
  - apply L.
Qed.
Lemma starts_brace : starts_with [123] (sign neg ++ A ++ tail) = false.
Proof.
  destruct A as [|a A'] eqn:EA; [contradiction|]. inversion FA as [|? ? Ha FA']; subst. destruct neg; cbn [sign app starts_with]; [reflexivity|].
  unfold ascii_digit in Ha. assert (123 =? a = false) as -> by (apply N.eqb_neq; lia). reflexivity.
Qed.
End Mixed.

Lemma mix_ascii s : forallb mix_cp s = true -> forallb (fun c => c <? 128) s = true.
Proof.
  apply forallb_impl. apply (digits_and_cases _ (fun c => (c <? 128) = true)).
  - intros c H. unfold ascii_digit in H. apply N.ltb_lt. lia.
  - repeat (constructor; [vm_compute; reflexivity|]). constructor.
Qed.

(** ** a b/c *)
Section Slash.
Variable neg : bool.
Variables A B C : pystr.
Variable k : nat.
Hypothesis FA : Forall ascii_digit A.  Hypothesis NA : A <> [].
Hypothesis FB : Forall ascii_digit B.  Hypothesis NB : B <> [].
Hypothesis FC : Forall ascii_digit C.  Hypothesis NC : C <> [].
Hypothesis Hk : k <> O.

Definition slash_in : pystr := sign neg ++ A ++ spaces k ++ B ++ 47 :: C.
Definition slash_out : pystr := sign neg ++ A ++ 43 :: B ++ 47 :: C.

Lemma mixed1_match pre : match_at mixed_re1 pre (A ++ spaces k ++ B ++ 47 :: C) =
  Some (MSt (rev C ++ 47 :: rev B ++ rev (spaces k) ++ rev A ++ pre) [] [(2%nat, B ++ 47 :: C); (1%nat, A)]).
Proof.
  apply fm_match_at. unfold mixed_re1. cbn [rseq].
  apply fm_seq with (MSt (rev A ++ pre) (spaces k ++ B ++ 47 :: C) [(1%nat, A)]).
  { apply fm_grp. apply fm_plus; [exact NA|apply digits_cls, FA|]. destruct k; [contradiction|]. reflexivity. }
  apply fm_seq with (MSt (rev (spaces k) ++ rev A ++ pre) (B ++ 47 :: C) [(1%nat, A)]).
  { apply fm_plus; [destruct k; [contradiction|discriminate]|apply spaces_sp|].
    destruct B as [|b B']; [contradiction|]. inversion FB as [|? ? Hb ?]; subst. cbn. unfold ascii_digit in Hb. apply N.eqb_neq. lia. }
  apply fm_seq with (MSt (rev C ++ 47 :: rev B ++ rev (spaces k) ++ rev A ++ pre) [] [(2%nat, B ++ 47 :: C); (1%nat, A)]); [|reflexivity].
  rewrite <- (app_nil_r (B ++ 47 :: C)) at 1. apply fm_grp. rewrite app_nil_r.
  apply fm_seq with (MSt (rev B ++ rev (spaces k) ++ rev A ++ pre) (47 :: C) [(1%nat, A)]).
  { apply fm_plus; [exact NB|apply digits_cls, FB|reflexivity]. }
  apply fm_seq with (MSt (47 :: rev B ++ rev (spaces k) ++ rev A ++ pre) C [(1%nat, A)]); [apply fm_chr; reflexivity|].
  apply fm_seq with (MSt (rev C ++ 47 :: rev B ++ rev (spaces k) ++ rev A ++ pre) [] [(1%nat, A)]); [|reflexivity].
  rewrite <- (app_nil_r C) at 1. apply fm_plus; [exact NC|apply digits_cls, FC|exact I].
Qed.
Lemma mixed1_sub : re_sub mixed_re1 [PGrp 1; PLit (u "+"); PGrp 2] slash_in = slash_out.
Proof.
  unfold re_sub, re_sub_fun, slash_in, slash_out.
  assert (G : forall pre, sub_go mixed_re1 (fun _ cs => expand [PGrp 1; PLit (u "+"); PGrp 2] cs) O pre (A ++ spaces k ++ B ++ 47 :: C)
     = A ++ 43 :: B ++ 47 :: C).
  { intro pre. rewrite <- (app_nil_r (A ++ spaces k ++ B ++ 47 :: C)) at 1.
    rewrite (sub_go_match _ _ pre (A ++ spaces k ++ B ++ 47 :: C) [] _ ltac:(rewrite app_nil_r; apply mixed1_match)).
    - rewrite sub_go_nil, app_nil_r. cbn [caps expand flat_map group Nat.eqb]. rewrite app_nil_r. reflexivity.
    - reflexivity.
    - destruct A; [contradiction|discriminate]. }
  destruct neg; cbn [sign app]; [|apply G]. rewrite sub_go_none; [rewrite G; reflexivity|]. reflexivity.
Qed.
Lemma slash_alpha l x : forallb (digits_and l) x = true -> mem_cp l 47 = true -> mem_cp l 45 = true ->
  forallb (digits_and l) (sign neg ++ A ++ x ++ B ++ 47 :: C) = true.
Proof.
  intros H H1 H2. rewrite !forallb_app. cbn [forallb].
  rewrite (digits_and_digit l A FA), (digits_and_digit l B FB), (digits_and_digit l C FC), H.
  assert (digits_and l 47 = true) as -> by (unfold digits_and; rewrite H1; apply orb_true_r).
  destruct neg; cbn [sign forallb]; [|reflexivity]. unfold digits_and. rewrite H2, orb_true_r. reflexivity.
Qed.
Lemma slash_in_alpha : forallb mix_cp slash_in = true.
Proof.
  apply slash_alpha; [|reflexivity|reflexivity]. apply forallb_forall. intros c Hc. apply repeat_spec in Hc. subst. reflexivity.
Qed.
Lemma slash_out_alpha l : mem_cp l 47 = true -> mem_cp l 45 = true -> mem_cp l 43 = true -> forallb (digits_and l) slash_out = true.
Proof.
  intros. apply (slash_alpha l [43]); auto. cbn [forallb]. unfold digits_and. rewrite H1, orb_true_r. reflexivity.
Qed.
Lemma C_last p : match rev (p ++ 47 :: C) with [] => True | c :: _ => ascii_digit c end.
Proof.
  rewrite rev_app_distr. cbn [rev]. destruct (rev C) as [|x t] eqn:E.
  - apply (f_equal (@rev N)) in E. rewrite rev_involutive in E. contradiction.
  - cbn. rewrite Forall_forall in FC. apply FC, in_rev. rewrite E. left; reflexivity.
Qed.
Lemma digit_not_space c : ascii_digit c -> is_space c = false.
Proof. intro H. ten c H; reflexivity. Qed.
Lemma C_last_ns p : match rev (p ++ 47 :: C) with [] => True | c :: _ => is_space c = false end.
Proof. pose proof (C_last p) as H. destruct (rev (p ++ 47 :: C)); [exact I|]. apply digit_not_space, H. Qed.

Lemma slash_further ints : further ints slash_in = slash_out.
Proof.
  assert (T : forallb mix_cp (spaces k ++ B ++ 47 :: C) = true).
  { pose proof slash_in_alpha as H. unfold slash_in in H. rewrite !forallb_app in H. rewrite !forallb_app. apply andb_true_iff in H. destruct H as [_ H].
    apply andb_true_iff in H. apply H. }
  assert (L : match rev (spaces k ++ B ++ 47 :: C) with [] => True | c :: _ => is_space c = false end).
  { rewrite app_assoc. apply C_last_ns. }
  assert (H0 : forallb (digits_and (u "+-/\frac{}")) slash_out = true) by (apply slash_out_alpha; reflexivity).
  rewrite (further_steps ints slash_in slash_in slash_in slash_out slash_out slash_out).
  - assert (str_is_int slash_out = false) as ->; [|reflexivity].
    unfold str_is_int, strip_commas. rewrite (alpha_sub_fun (digits_and (u "+-/\frac{}"))) by ((vm_compute; reflexivity) || exact H0).
    unfold slash_out. rewrite not_float; auto.
    + discriminate.
    + cbn. repeat split; discriminate.
    + cbn [forallb]. rewrite forallb_app. cbn [forallb]. rewrite (mix_ascii _ (digits_and_digit _ _ FB)), (mix_ascii _ (digits_and_digit _ _ FC)). reflexivity.
    + cbn [In]. rewrite in_app_iff. cbn [In]. rewrite Forall_forall in FB, FC. intros [H|[H|[H|H]]]; try discriminate; [apply FB in H|apply FC in H]; unfold ascii_digit in H; lia.
    + change (43 :: B ++ 47 :: C) with ((43 :: B) ++ 47 :: C). apply C_last_ns.
  - unfold slash_in. apply starts_brace; assumption.
  - unfold norm_int, slash_in. rewrite not_float; auto.
    + destruct k; [contradiction|discriminate].
    + destruct k; [contradiction|]. cbn. repeat split; discriminate.
    + apply mix_ascii, T.
    + apply (alpha_not_in mix_cp); [reflexivity|exact T].
  - assert (contains [bslash] slash_in = false) as ->; [|reflexivity].
    apply (alpha_contains (digits_and (u " /-"))); [reflexivity|]. apply slash_alpha; [|reflexivity|reflexivity].
    apply forallb_forall. intros c Hc. apply repeat_spec in Hc. subst. reflexivity.
  - unfold slash_in. apply minus_keep; auto. apply (alpha_not_in (digits_and (u " /"))); [reflexivity|].
    rewrite !forallb_app; cbn [forallb]; rewrite (digits_and_digit _ B FB), (digits_and_digit _ C FC); rewrite !andb_true_r;
    apply forallb_forall; intros c Hc; apply repeat_spec in Hc; subst; reflexivity.
  - unfold inject_mixed. rewrite mixed1_sub.
    apply (alpha_sub (digits_and (u "+-/")) mixed_re2); [vm_compute; reflexivity|apply slash_out_alpha; reflexivity].
  - apply (alpha_replace (digits_and (u "+-/"))); [reflexivity|apply slash_out_alpha; reflexivity].
  - apply (lower_id (digits_and (u "+-/\frac{}"))); [exact mix_lower|exact H0].
Qed.
Lemma slash_normalize ints : string_normalize ints slash_in = NStr slash_out.
Proof.
  rewrite (inert_normalize mix_cp mix_inert slash_in slash_in_alpha).
  - rewrite slash_further. reflexivity.
  - apply (alpha_contains (digits_and (u " /-"))); [reflexivity|]. apply slash_alpha; [|reflexivity|reflexivity].
    apply forallb_forall. intros c Hc. apply repeat_spec in Hc. subst. reflexivity.
  - unfold slash_in. apply strip_by_id.
    + destruct neg; cbn [sign app]; [reflexivity|]. destruct A as [|a A']; [contradiction|]. inversion FA; subst. apply (first_space_free a []). assumption.
    + rewrite !app_assoc. pose proof (C_last (((sign neg ++ A) ++ spaces k) ++ B)) as H. match type of H with match ?r with _ => _ end => destruct r as [|x t] end; [exact I|].
      unfold ascii_digit in H. apply N.eqb_neq. lia.
Qed.
Lemma slash_value : exists q, expr_value slash_out = Some q /\ (q == signed neg (nat_value A) + nat_value B / nat_value C)%Q.
Proof.
  unfold expr_value, slash_out.
  assert (T2 : term_value (B ++ 47 :: C) = (Some (nat_value B / nat_value C)%Q, [])).
  { unfold term_value. destruct B as [|b B'] eqn:EB; [contradiction|]. inversion FB as [|? ? Hb FB']; subst.
    assert (starts_with (u "\frac") ((b :: B') ++ 47 :: C) = false) as ->.
    { change (u "\frac") with (92 :: u "frac"). cbn [app starts_with]. unfold ascii_digit in Hb. destruct (N.eqb_spec 92 b); [lia|reflexivity]. }
    rewrite span_digits_app by (exact FB || reflexivity). cbn beta iota.
    rewrite <- (app_nil_r C) at 1. rewrite span_digits_app by (exact FC || exact I). destruct C; [contradiction|]. reflexivity. }
  assert (T1 : term_value (A ++ 43 :: B ++ 47 :: C) = (Some (nat_value A), 43 :: B ++ 47 :: C)).
  { unfold term_value. destruct A as [|b B'] eqn:EB; [contradiction|]. inversion FA as [|? ? Hb FB']; subst.
    assert (starts_with (u "\frac") ((b :: B') ++ 43 :: B ++ 47 :: C) = false) as ->.
    { change (u "\frac") with (92 :: u "frac"). cbn [app starts_with]. unfold ascii_digit in Hb. destruct (N.eqb_spec 92 b); [lia|reflexivity]. }
    rewrite span_digits_app by (exact FA || reflexivity). reflexivity. }
  assert (S2 : forall f, sum_value (S f) (B ++ 47 :: C) = Some (nat_value B / nat_value C)%Q).
  { intro f. cbn [sum_value]. assert (E : take_sign (B ++ 47 :: C) = (false, B ++ 47 :: C)).
    { destruct B as [|b B']; [contradiction|]. inversion FB as [|? ? Hb ?]; subst. ten b Hb; reflexivity. }
    rewrite E, T2. reflexivity. }
  exists (signed neg (nat_value A) + nat_value B / nat_value C)%Q. split; [|reflexivity].
  assert (L : exists f, (length (sign neg ++ A ++ 43%N :: B ++ 47%N :: C)) = S f).
  { rewrite !app_length. cbn [length]. exists (length (sign neg) + (length A + length (B ++ 47%N :: C)))%nat. lia. }
  destruct L as [f ->]. remember (S f) as g eqn:Eg. cbn [sum_value].
  assert (E : take_sign (sign neg ++ A ++ 43 :: B ++ 47 :: C)
    = (neg, A ++ 43 :: B ++ 47 :: C)).
  { destruct neg; cbn [sign app]; [reflexivity|]. destruct A as [|b B']; [contradiction|]. inversion FA as [|? ? Hb ?]; subst. ten b Hb; reflexivity. }
  rewrite E, T1. cbn beta iota. subst g. rewrite S2. destruct neg; reflexivity.
Qed.
End Slash.

(** ** a\frac{b}{c} *)
Inductive frac_text : pystr -> pystr -> Prop :=
| frac_digit d : ascii_digit d -> frac_text [d] [d]
| frac_braces ds : Forall ascii_digit ds -> ds <> [] -> frac_text ds (123 :: ds ++ [125]).
Lemma frac_text_digits B x : frac_text B x -> Forall ascii_digit B /\ B <> [].
Proof. destruct 1; [split; [constructor; [assumption|constructor]|discriminate]|auto]. Qed.
Lemma frac_text_alpha l B x : frac_text B x -> mem_cp l 123 = true -> mem_cp l 125 = true -> forallb (digits_and l) x = true.
Proof.
  intros H H1 H2. destruct H as [d Hd|ds F _].
  - apply digits_and_digit. constructor; [exact Hd|constructor].
  - cbn [forallb]. rewrite forallb_app, digits_and_digit by exact F. cbn [forallb]. unfold digits_and. rewrite H1, H2, !orb_true_r. reflexivity.
Qed.
Lemma frac_text_last B x p : frac_text B x -> match rev (p ++ x) with [] => True | c :: _ => ascii_digit c \/ c = 125 end.
Proof.
  intro H. rewrite rev_app_distr. destruct H as [d Hd|ds F _]; cbn [rev app]; [left; exact Hd|].
  rewrite rev_app_distr. right. reflexivity.
Qed.
Lemma frac_text_match n B x pre s cs : frac_text B x -> fm (RGrp n frac_arg) (MSt pre (x ++ s) cs) (MSt (rev x ++ pre) s ((n, x) :: cs)).
Proof.
  intro H. apply fm_grp. destruct H as [d Hd|ds F Hne]; unfold frac_arg.
  - apply fm_alt_l. cbn [app rev]. apply fm_chr, ascii_is_digit, Hd.
  - apply fm_alt_r; [apply nm_chr; reflexivity|]. cbn [rseq app]. rewrite <- app_assoc. cbn [app].
    apply fm_seq with (MSt (123 :: pre) (ds ++ 125 :: s) cs); [apply fm_chr; reflexivity|].
    apply fm_seq with (MSt (rev ds ++ 123 :: pre) (125 :: s) cs); [apply fm_plus; [exact Hne|apply digits_cls, F|reflexivity]|].
    apply fm_seq with (MSt (125 :: rev ds ++ 123 :: pre) s cs); [apply fm_chr; reflexivity|].
    cbn [rev]. rewrite rev_app_distr. cbn [rev app]. rewrite <- app_assoc. reflexivity.
Qed.
Lemma frac_text_value B x s : frac_text B x -> arg_value (x ++ s) = (B, s).
Proof.
  destruct 1 as [d Hd|ds F Hne].
  - cbn [app arg_value]. apply ascii_digit_b in Hd as Hb. ten d Hd; reflexivity.
  - cbn [app arg_value]. rewrite <- app_assoc. cbn [app]. rewrite span_digits_app by (exact F || reflexivity). reflexivity.
Qed.

Section Frac.
Variable neg : bool.
Variables A B C x y : pystr.
Variable k : nat.
Hypothesis FA : Forall ascii_digit A.  Hypothesis NA : A <> [].
Hypothesis TB : frac_text B x.
Hypothesis TC : frac_text C y.

Definition frac : pystr := u "\frac" ++ x ++ y.
Definition frac_in : pystr := sign neg ++ A ++ spaces k ++ frac.
Definition frac_out : pystr := sign neg ++ A ++ 43 :: frac.

Lemma mixed2_match pre : match_at mixed_re2 pre (A ++ spaces k ++ frac) =
  Some (MSt (rev y ++ rev x ++ rev (u "\frac") ++ rev (spaces k) ++ rev A ++ pre) []
          [(2%nat, frac); (4%nat, y); (3%nat, x); (1%nat, A)]).
Proof.
  apply fm_match_at. unfold mixed_re2. cbn [rseq].
  apply fm_seq with (MSt (rev A ++ pre) (spaces k ++ frac) [(1%nat, A)]).
  { apply fm_grp. apply fm_plus; [exact NA|apply digits_cls, FA|]. destruct k; reflexivity. }
  apply fm_seq with (MSt (rev (spaces k) ++ rev A ++ pre) frac [(1%nat, A)]).
  { apply fm_run; [apply spaces_sp|reflexivity]. }
  set (q := rev (spaces k) ++ rev A ++ pre).
  apply fm_seq with (MSt (rev y ++ rev x ++ rev (u "\frac") ++ q) [] [(2%nat, frac); (4%nat, y); (3%nat, x); (1%nat, A)]); [|reflexivity].
  rewrite <- (app_nil_r frac) at 1. apply fm_grp. rewrite app_nil_r. unfold frac.
  apply fm_seq with (MSt (rev (u "\frac") ++ q) (x ++ y) [(1%nat, A)]); [apply fm_rstr|].
  apply fm_seq with (MSt (rev x ++ rev (u "\frac") ++ q) y [(3%nat, x); (1%nat, A)]); [eapply frac_text_match; exact TB|].
  apply fm_seq with (MSt (rev y ++ rev x ++ rev (u "\frac") ++ q) [] [(4%nat, y); (3%nat, x); (1%nat, A)]); [|reflexivity].
  rewrite <- (app_nil_r y) at 1. eapply frac_text_match; exact TC.
Qed.
Lemma mixed2_sub : re_sub mixed_re2 [PGrp 1; PLit (u "+"); PGrp 2] frac_in = frac_out.
Proof.
  unfold re_sub, re_sub_fun, frac_in, frac_out.
  assert (G : forall pre, sub_go mixed_re2 (fun _ cs => expand [PGrp 1; PLit (u "+"); PGrp 2] cs) O pre (A ++ spaces k ++ frac) = A ++ 43 :: frac).
  { intro pre. rewrite <- (app_nil_r (A ++ spaces k ++ frac)) at 1.
    rewrite (sub_go_match _ _ pre (A ++ spaces k ++ frac) [] _ ltac:(rewrite app_nil_r; apply mixed2_match)).
    - rewrite sub_go_nil, app_nil_r. cbn [caps expand flat_map group Nat.eqb]. rewrite app_nil_r. reflexivity.
    - reflexivity.
    - destruct A; [contradiction|discriminate]. }
  destruct neg; cbn [sign app]; [|apply G]. rewrite sub_go_none; [rewrite G; reflexivity|]. reflexivity.
Qed.
Lemma frac_alpha l : forallb (mem_cp l) (u "\frac{}") = true -> forallb (digits_and l) frac = true.
Proof.
  intro H. unfold frac. rewrite !forallb_app.
  assert (M : forall c, In c (u "\frac{}") -> mem_cp l c = true) by (apply forallb_forall; exact H).
  rewrite (frac_text_alpha l B x TB), (frac_text_alpha l C y TC) by (apply M; vm_compute; tauto).
  rewrite !andb_true_r. apply forallb_forall. intros c Hc. unfold digits_and. rewrite M, orb_true_r; [reflexivity|].
  change (u "\frac{}") with (u "\frac" ++ u "{}"). apply in_or_app. left; exact Hc.
Qed.
Lemma frac_alpha_all l m : forallb (digits_and l) m = true -> forallb (mem_cp l) (u "\frac{}-") = true ->
  forallb (digits_and l) (sign neg ++ A ++ m ++ frac) = true.
Proof.
  intros Hm H. rewrite !forallb_app, (digits_and_digit l A FA), Hm, frac_alpha.
  - destruct neg; [|reflexivity]. rewrite !andb_true_r. change (u "\frac{}-") with (u "\frac{}" ++ [45]) in H. rewrite forallb_app in H.
    apply andb_true_iff in H. destruct H as [_ H]. cbn [sign forallb] in *. unfold digits_and. apply andb_true_iff in H. destruct H as [-> _]. rewrite orb_true_r. reflexivity.
  - change (u "\frac{}-") with (u "\frac{}" ++ [45]) in H. rewrite forallb_app in H. apply andb_true_iff in H. apply H.
Qed.
Lemma frac_in_alpha : forallb mix_cp frac_in = true.
Proof.
  apply frac_alpha_all; [|reflexivity]. apply forallb_forall. intros c Hc. apply repeat_spec in Hc. subst. reflexivity.
Qed.
Lemma frac_out_alpha : forallb (digits_and (u "+-/\frac{}")) frac_out = true.
Proof. apply (frac_alpha_all _ [43]); reflexivity. Qed.
Lemma frac_last p : match rev (p ++ frac) with [] => True | c :: _ => ascii_digit c \/ c = 125 end.
Proof. unfold frac. rewrite !app_assoc. apply (frac_text_last C y). exact TC. Qed.
Lemma frac_last_ns p : match rev (p ++ frac) with [] => True | c :: _ => is_space c = false end.
Proof. pose proof (frac_last p) as H. destruct (rev (p ++ frac)); [exact I|]. destruct H as [H| ->]; [apply digit_not_space, H|reflexivity]. Qed.

(** Backslashes occur only in the prefix of [frac]. *)
Lemma args_alpha : forallb (digits_and (u "frac{}")) (u "frac" ++ x ++ y) = true.
Proof.
  rewrite !forallb_app, (frac_text_alpha _ B x TB), (frac_text_alpha _ C y TC) by reflexivity. reflexivity.
Qed.
Lemma two_backslash : contains [92; 92] frac_in = false.
Proof.
  destruct (contains [92; 92] frac_in) eqn:E; [|reflexivity]. exfalso. apply contains_spec in E. destruct E as (a & b & E).
  assert (N : count_occ N.eq_dec frac_in 92 = 1%nat).
  { assert (Z : forall l s, mem_cp l 92 = false -> forallb (digits_and l) s = true -> count_occ N.eq_dec s 92 = O).
    { intros l s Hl Hs. apply count_occ_not_In. apply (alpha_not_in (digits_and l)); [|exact Hs]. unfold digits_and. rewrite Hl. reflexivity. }
    unfold frac_in, frac. change (u "\frac") with ([92] ++ u "frac"). rewrite <- app_assoc, !count_occ_app.
    rewrite (Z [45] (sign neg)) by (destruct neg; reflexivity). rewrite (Z [] A) by (reflexivity || apply digits_and_digit, FA).
    rewrite (Z [32] (spaces k)) by (reflexivity || (apply forallb_forall; intros c Hc; apply repeat_spec in Hc; subst; reflexivity)).
    pose proof (Z (u "frac{}") _ eq_refl args_alpha) as Za. rewrite !count_occ_app in Za. rewrite Za. reflexivity. }
  rewrite E, !count_occ_app in N. cbn in N. lia.
Qed.
Definition front_cp : N -> bool := digits_and (u " -").
Lemma front_alpha : forallb front_cp (sign neg ++ A ++ spaces k) = true.
Proof.
  unfold front_cp. rewrite !forallb_app, (digits_and_digit _ A FA).
  assert (forallb (digits_and (u " -")) (spaces k) = true) as -> by (apply forallb_forall; intros c Hc; apply repeat_spec in Hc; subst; reflexivity).
  destruct neg; reflexivity.
Qed.
Lemma frac_in_split : frac_in = (sign neg ++ A ++ spaces k) ++ 92 :: u "frac" ++ x ++ y.
Proof. unfold frac_in, frac. rewrite <- !app_assoc. reflexivity. Qed.
Lemma replace_cmd c new rest : c <> 102 -> replace (92 :: c :: rest) new frac_in = frac_in.
Proof.
  intro Hc. rewrite frac_in_split, (replace_prefix front_cp) by (reflexivity || exact front_alpha). f_equal. unfold replace.
  change (92 :: u "frac" ++ x ++ y) with (92 :: 102 :: u "rac" ++ x ++ y). set (t := u "rac" ++ x ++ y).
  cbn [replace_go starts_with]. assert (c =? 102 = false) as -> by (apply N.eqb_neq; exact Hc). cbn [andb].
  change (92 =? 102) with false. rewrite andb_false_r. cbn [andb]. f_equal. f_equal. apply (alpha_replace (digits_and (u "frac{}"))); [reflexivity|].
  pose proof args_alpha as H. change (u "frac" ++ x ++ y) with (102 :: t) in H. cbn [forallb] in H. apply andb_true_iff in H. apply H.
Qed.
Lemma parse_latex_id : parse_latex frac_in = frac_in.
Proof.
  unfold parse_latex. rewrite (replace_cmd 116 (u "\frac") (u "frac") ltac:(discriminate) : replace (u "\tfrac") (u "\frac") frac_in = frac_in).
  rewrite (replace_cmd 99 (u "\frac") (u "frac") ltac:(discriminate) : replace (u "\cfrac") (u "\frac") frac_in = frac_in).
  rewrite (replace_cmd 100 (u "\frac") (u "frac") ltac:(discriminate) : replace (u "\dfrac") (u "\frac") frac_in = frac_in).
  cbv zeta. repeat (rewrite (alpha_replace mix_cp _ _ frac_in) by ((vm_compute; reflexivity) || exact frac_in_alpha)).
  apply strip_by_id.
  - unfold frac_in. destruct neg; cbn [sign app]; [reflexivity|]. destruct A as [|a A']; [contradiction|]. inversion FA; subst. apply digit_not_space. assumption.
  - unfold frac_in. rewrite !app_assoc. apply frac_last_ns.
Qed.
Lemma frac_further ints : further ints frac_in = frac_out.
Proof.
  assert (T : forallb mix_cp (spaces k ++ frac) = true).
  { pose proof frac_in_alpha as H. unfold frac_in in H. rewrite !forallb_app in H. rewrite !forallb_app. apply andb_true_iff in H. destruct H as [_ H].
    apply andb_true_iff in H. apply H. }
  rewrite (further_steps ints frac_in frac_in frac_in frac_out frac_out frac_out).
  - assert (str_is_int frac_out = false) as ->; [|reflexivity].
    unfold str_is_int, strip_commas. rewrite (alpha_sub_fun (digits_and (u "+-/\frac{}"))) by ((vm_compute; reflexivity) || exact frac_out_alpha).
    unfold frac_out. rewrite not_float; auto.
    + discriminate.
    + cbn. repeat split; discriminate.
    + cbn [forallb]. apply mix_ascii. apply frac_alpha. reflexivity.
    + cbn [In]. intros [H|H]; [discriminate|]. revert H. apply (alpha_not_in mix_cp); [reflexivity|]. apply frac_alpha. reflexivity.
    + change (43 :: frac) with ([43] ++ frac). apply frac_last_ns.
  - unfold frac_in. apply starts_brace; assumption.
  - unfold norm_int, frac_in. rewrite not_float; auto.
    + destruct k; discriminate.
    + destruct k; cbn; repeat split; discriminate.
    + apply mix_ascii, T.
    + apply (alpha_not_in mix_cp); [reflexivity|exact T].
    + apply frac_last_ns.
  - rewrite parse_latex_id. destruct (contains _ _); reflexivity.
  - unfold frac_in. apply minus_keep; auto. apply (alpha_not_in (digits_and (u " \frac{}"))); [reflexivity|].
    rewrite !forallb_app, frac_alpha by reflexivity. rewrite andb_true_r.
    apply forallb_forall; intros c Hc; apply repeat_spec in Hc; subst; reflexivity.
  - unfold inject_mixed. rewrite (alpha_sub (digits_and (u " -\frac{}")) mixed_re1), mixed2_sub; [reflexivity|vm_compute; reflexivity|].
    apply frac_alpha_all; [|reflexivity]. apply forallb_forall; intros c Hc; apply repeat_spec in Hc; subst; reflexivity.
  - apply (alpha_replace (digits_and (u "+-/\frac{}"))); [reflexivity|exact frac_out_alpha].
  - apply (lower_id (digits_and (u "+-/\frac{}"))); [exact mix_lower|exact frac_out_alpha].
Qed.
Lemma frac_normalize ints : string_normalize ints frac_in = NStr frac_out.
Proof.
  rewrite (inert_normalize mix_cp mix_inert frac_in frac_in_alpha two_backslash).
  - rewrite frac_further. reflexivity.
  - unfold frac_in. apply strip_by_id.
    + destruct neg; cbn [sign app]; [reflexivity|]. destruct A as [|a A']; [contradiction|]. inversion FA; subst. apply (first_space_free a []). assumption.
    + rewrite !app_assoc. pose proof (frac_last ((sign neg ++ A) ++ spaces k)) as H.
      match type of H with match ?r with _ => _ end => destruct r as [|z t] end; [exact I|].
      unfold ascii_digit in H. apply N.eqb_neq. lia.
Qed.
Lemma frac_value : exists q, expr_value frac_out = Some q /\ (q == signed neg (nat_value A) + nat_value B / nat_value C)%Q.
Proof.
  unfold expr_value, frac_out.
  assert (T2 : term_value frac = (Some (nat_value B / nat_value C)%Q, [])).
  { unfold term_value. assert (starts_with (u "\frac") frac = true) as -> by (apply starts_with_spec; eexists; reflexivity).
    change (skipn 5 frac) with (x ++ y). rewrite (frac_text_value B x y TB). rewrite <- (app_nil_r y) at 1. rewrite (frac_text_value C y [] TC).
    destruct (frac_text_digits B x TB) as [_ NB]. destruct (frac_text_digits C y TC) as [_ NC].
    unfold quotient. destruct B; [contradiction|]. destruct C; [contradiction|]. reflexivity. }
  assert (T1 : term_value (A ++ 43 :: frac) = (Some (nat_value A), 43 :: frac)).
  { unfold term_value. destruct A as [|b B'] eqn:EB; [contradiction|]. inversion FA as [|? ? Hb FB']; subst.
    assert (starts_with (u "\frac") ((b :: B') ++ 43 :: frac) = false) as ->.
    { change (u "\frac") with (92 :: u "frac"). cbn [app starts_with]. unfold ascii_digit in Hb. destruct (N.eqb_spec 92 b); [lia|reflexivity]. }
    rewrite span_digits_app by (exact FA || reflexivity). reflexivity. }
  assert (S2 : forall f, sum_value (S f) frac = Some (nat_value B / nat_value C)%Q).
  { intro f. cbn [sum_value]. change (take_sign frac) with (false, frac). cbn beta iota. rewrite T2. reflexivity. }
  exists (signed neg (nat_value A) + nat_value B / nat_value C)%Q. split; [|reflexivity].
  assert (L : exists f, (length (sign neg ++ A ++ 43%N :: frac)) = S f).
  { rewrite !app_length. cbn [length]. exists (length (sign neg) + (length A + length frac))%nat. lia. }
  destruct L as [f ->]. remember (S f) as g eqn:Eg. cbn [sum_value].
  assert (E : take_sign (sign neg ++ A ++ 43 :: frac) = (neg, A ++ 43 :: frac)).
  { destruct neg; cbn [sign app]; [reflexivity|]. destruct A as [|b B']; [contradiction|]. inversion FA as [|? ? Hb ?]; subst. ten b Hb; reflexivity. }
  rewrite E, T1. cbn beta iota. subst g. rewrite S2. destruct neg; reflexivity.
Qed.
End Frac.

(** The negated mixed number differs from what the normal form denotes. *)
Lemma negative_mixed_differs a b c : (~ b == 0)%Q -> (~ c == 0)%Q -> ~ (- a + b / c == - (a + b / c))%Q.
Proof.
  intros Hb Hc E. apply Hb. assert (H : (b / c == 0)%Q).
  { assert (H2 : (b / c + b / c == 0)%Q) by (setoid_replace (b / c + b / c)%Q with ((- a + b / c) - - (a + b / c))%Q by ring; rewrite E; ring).
    setoid_replace (b / c)%Q with ((1 # 2) * (b / c + b / c))%Q by ring. rewrite H2. ring. }
  setoid_replace b with (b / c * c)%Q by (field; exact Hc). rewrite H. ring.
Qed.
