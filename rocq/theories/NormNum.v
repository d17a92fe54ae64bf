(** Numerals: integers, other bases, percentages, mixed numbers, scientific notation. *)
From Coq Require Import String List NArith ZArith QArith Bool Lia Arith.
From Verif Require Import UnicodeTables PyStr PyStrTheory NumTheory Regex RegexTheory Float64 FloatTheory Constants Normalize NormTheory.
Import ListNotations.
Local Open Scope N_scope.

(** Digits, signs, point, slash, e *)
Definition num_cp : N -> bool := digits_and (u "+-./e").
Lemma num_inert : inert num_cp = true.
Proof. vm_compute. reflexivity. Qed.

Lemma lower_id alpha s : (forall c, alpha c = true -> lower_cp c = [c]) -> forallb alpha s = true -> lower s = s.
Proof.
  intro H. unfold lower. induction s as [|c s IH]; intro Hs; [reflexivity|]. cbn [forallb flat_map] in *.
  apply andb_true_iff in Hs. destruct Hs as [Hc Hs]. rewrite (H c Hc), (IH Hs). reflexivity.
Qed.
Lemma mem_cp_in l c : mem_cp l c = true -> In c l.
Proof. unfold mem_cp. rewrite existsb_exists. intros (x & Hx & E). apply N.eqb_eq in E. subst. exact Hx. Qed.
(** A fact about all characters of [digits_and l] for a concrete [l] *)
Lemma digits_and_cases l (P : N -> Prop) : (forall c, ascii_digit c -> P c) -> Forall P l -> forall c, digits_and l c = true -> P c.
Proof.
  intros H1 H2 c H. unfold digits_and in H. apply orb_true_iff in H. destruct H as [H|H].
  - apply H1, ascii_digit_b. exact H.
  - rewrite Forall_forall in H2. apply H2, mem_cp_in. exact H.
Qed.
Lemma num_lower c : num_cp c = true -> lower_cp c = [c].
Proof.
  revert c. apply (digits_and_cases _ (fun c => lower_cp c = [c])); [exact lower_digit|]. change (u "+-./e") with [43;45;46;47;101].
  repeat (constructor; [vm_compute; reflexivity|]). constructor.
Qed.
Lemma digits_and_not_in l s c : is_ascii_digit c = false -> mem_cp l c = false -> forallb (digits_and l) s = true -> ~ In c s.
Proof.
  intros H1 H2 Hs Hin. rewrite forallb_forall in Hs. specialize (Hs c Hin). unfold digits_and in Hs. rewrite H1, H2 in Hs. discriminate.
Qed.

Lemma alpha_not_in (alpha : N -> bool) s c : alpha c = false -> forallb alpha s = true -> ~ In c s.
Proof. intros H Hs Hin. rewrite forallb_forall in Hs. rewrite (Hs c Hin) in H. discriminate. Qed.
Lemma contains_single_not c s : ~ In c s -> contains [c] s = false.
Proof. intro H. destruct (contains [c] s) eqn:E; [|reflexivity]. apply contains_single in E. contradiction. Qed.
Lemma replace_single_not c q s : ~ In c s -> replace [c] q s = s.
Proof.
  intro H. apply (alpha_replace (fun x => negb (N.eqb c x))).
  - cbn. rewrite N.eqb_refl. reflexivity.
  - apply forallb_forall. intros x Hx. apply negb_true_iff, N.eqb_neq. intros ->. contradiction.
Qed.
Lemma strip_sp_id s : ~ In 32 s -> strip_sp s = s.
Proof.
  intro H. apply strip_by_id.
  - destruct s as [|c s]; [exact I|]. apply N.eqb_neq. intros <-. apply H. left; reflexivity.
  - destruct (rev s) as [|c t] eqn:E; [exact I|]. apply N.eqb_neq. intros <-. apply H. apply in_rev. rewrite E. left; reflexivity.
Qed.

(** [further] on numerals without space or slash *)
Definition plain_num : N -> bool := digits_and (u "+-.e").
Lemma forallb_impl {A} (p q : A -> bool) l : (forall x, p x = true -> q x = true) -> forallb p l = true -> forallb q l = true.
Proof. intros H Hl. rewrite forallb_forall in *. auto. Qed.
Lemma plain_is_num c : plain_num c = true -> num_cp c = true.
Proof.
  revert c. apply (digits_and_cases _ (fun c => num_cp c = true)).
  - intros x Hx. unfold num_cp, digits_and. rewrite (proj1 (ascii_digit_b x) Hx). reflexivity.
  - repeat (constructor; [vm_compute; reflexivity|]). constructor.
Qed.
Lemma further_plain ints s s' : forallb plain_num s = true -> norm_int s = s' ->
  forallb plain_num s' = true -> further ints s = if str_is_int s' then ints s' else s'.
Proof.
  intros Hs Hn Hs'. unfold further.
  assert (starts_with [123] s = false) as -> by (apply (foreign_starts plain_num); [reflexivity|exact Hs]).
  cbn [andb]. cbv zeta. rewrite Hn.
  rewrite (alpha_contains plain_num [bslash] s') by (reflexivity || exact Hs').
  rewrite minus_sub_id by (apply (alpha_not_in plain_num); [reflexivity|exact Hs']).
  unfold inject_mixed. rewrite (alpha_sub plain_num mixed_re1), (alpha_sub plain_num mixed_re2) by (vm_compute; reflexivity || exact Hs').
  rewrite (alpha_replace plain_num [32]) by (reflexivity || exact Hs').
  rewrite (lower_id num_cp) by (exact num_lower || (eapply forallb_impl; [exact plain_is_num|exact Hs'])). reflexivity.
Qed.
Lemma normalize_plain ints s s' : forallb plain_num s = true -> norm_int s = s' -> forallb plain_num s' = true ->
  string_normalize ints s = NStr (if str_is_int s' then ints s' else s').
Proof.
  intros Hs Hn Hs'. assert (Hm : forallb num_cp s = true) by (eapply forallb_impl; [exact plain_is_num|exact Hs]).
  rewrite (inert_normalize num_cp num_inert s Hm).
  - f_equal. apply further_plain; assumption.
  - apply (alpha_contains num_cp); [reflexivity|exact Hm].
  - apply strip_sp_id, (alpha_not_in plain_num); [reflexivity|exact Hs].
Qed.

(** ** Integers *)
Lemma digits_ends s c : Forall ascii_digit s -> In c s -> is_space c = false.
Proof. intros F H. rewrite Forall_forall in F. specialize (F c H). ten c F; reflexivity. Qed.
Lemma plain_ascii s : forallb num_cp s = true -> forallb (fun c => c <? 128) s = true.
Proof.
  apply forallb_impl. apply (digits_and_cases _ (fun c => (c <? 128) = true)).
  - intros c H. unfold ascii_digit in H. apply N.ltb_lt. lia.
  - repeat (constructor; [vm_compute; reflexivity|]). constructor.
Qed.
Lemma plain_no_space c : num_cp c = true -> is_space c = false.
Proof.
  revert c. apply (digits_and_cases _ (fun c => is_space c = false)).
  - intros x H. ten x H; reflexivity.
  - repeat (constructor; [vm_compute; reflexivity|]). constructor.
Qed.
Lemma py_float_plain s : forallb num_cp s = true -> py_float s = read_signed s.
Proof.
  intro H. rewrite py_float_ends; [reflexivity|apply plain_ascii; exact H|apply (alpha_not_in num_cp); [reflexivity|exact H]| |].
  - destruct s as [|c s]; [exact I|]. apply plain_no_space. cbn in H. apply andb_true_iff in H. apply H.
  - rewrite <- forallb_rev in H. destruct (rev s) as [|c t]; [exact I|]. apply plain_no_space. cbn in H. apply andb_true_iff in H. apply H.
Qed.
Lemma plain_digits ds : Forall ascii_digit ds -> forallb plain_num ds = true.
Proof. apply digits_and_digit. Qed.
Lemma plain_num_digits s : forallb plain_num s = true -> forallb num_cp s = true.
Proof. apply forallb_impl, plain_is_num. Qed.

Lemma py_float_nat ds : Forall ascii_digit ds -> ds <> [] -> py_float ds = Some (float_of_dec false (dec_value ds) 0).
Proof.
  intros F Hne. rewrite py_float_plain by (apply plain_num_digits, plain_digits, F).
  destruct ds as [|c ds]; [contradiction|]. inversion F; subst. rewrite read_signed_digit by assumption.
  apply parse_unsigned_int; assumption.
Qed.
Lemma py_float_neg ds : Forall ascii_digit ds -> ds <> [] -> py_float (45 :: ds) = Some (float_of_dec true (dec_value ds) 0).
Proof.
  intros F Hne. rewrite py_float_plain.
  - cbn [read_signed]. destruct ds as [|c ds]; [contradiction|]. inversion F; subst. apply parse_unsigned_int; assumption.
  - cbn [forallb]. change (num_cp 45) with true. apply plain_num_digits, plain_digits, F.
Qed.
Lemma dec_Z_plain z : forallb plain_num (dec_Z z) = true.
Proof.
  destruct z as [|p|p]; [reflexivity| |]; cbn [dec_Z].
  - apply plain_digits, dec_N_spec.
  - cbn [forallb]. change (plain_num 45) with true. apply plain_digits, dec_N_spec.
Qed.
Lemma dec_Z_no c z : is_ascii_digit c = false -> c <> 45 -> ~ In c (dec_Z z).
Proof.
  intros Hc Hm Hin. assert (G : forall n, ~ In c (dec_N n)).
  { intros n H. destruct (dec_N_spec n) as (F & _). rewrite Forall_forall in F. apply F, ascii_digit_b in H. congruence. }
  destruct z as [|p|p]; cbn [dec_Z] in Hin.
  - destruct Hin as [<-|[]]. discriminate Hc.
  - eapply G; eauto.
  - destruct Hin as [<-|Hin]; [contradiction|eapply G; eauto].
Qed.
Lemma py_float_Z z : py_float (dec_Z z) = Some (float_of_dec (z <? 0)%Z (Z.abs_N z) 0).
Proof.
  destruct z as [|p|p]; [vm_compute; reflexivity| |]; cbn [dec_Z].
  - destruct (dec_N_spec (N.pos p)) as (F & V & Hne & _). rewrite py_float_nat by assumption. rewrite V. reflexivity.
  - destruct (dec_N_spec (N.pos p)) as (F & V & Hne & _). rewrite py_float_neg by assumption. rewrite V. reflexivity.
Qed.
Lemma norm_int_Z z f : py_float (dec_Z z) = Some f -> float_is_int f = true ->
  norm_int (dec_Z z) = match int_round f with Some z' => dec_Z z' | None => dec_Z z end.
Proof.
  intros Hf Hi. unfold norm_int. rewrite Hf, Hi. change (u "e") with [101].
  rewrite contains_single_not by (apply dec_Z_no; [reflexivity|discriminate]). reflexivity.
Qed.
Lemma strip_commas_plain s : forallb num_cp s = true -> strip_commas s = s.
Proof. intro H. apply (alpha_sub_fun num_cp); [vm_compute; reflexivity|exact H]. Qed.
Lemma int_exact z : (- 2 ^ 53 <= z <= 2 ^ 53)%Z -> exists f, py_float (dec_Z z) = Some f /\ float_is_int f = true /\ int_round f = Some z.
Proof.
  intro H. rewrite py_float_Z. destruct (float_of_nat (z <? 0)%Z (Z.abs_N z)) as (m & e & -> & Hr & Hi).
  { apply N2Z.inj_le. rewrite N2Z.inj_abs_N. change (Z.of_N (2 ^ 53)) with (2 ^ 53)%Z. lia. }
  exists (FFin (z <? 0)%Z m e). split; [reflexivity|]. split; [exact Hi|]. cbn [int_round]. rewrite Hr.
  rewrite N2Z.inj_abs_N. f_equal. destruct (Z.ltb_spec z 0); lia.
Qed.
Lemma normalize_int ints z : (- 2 ^ 53 <= z <= 2 ^ 53)%Z -> string_normalize ints (dec_Z z) = NStr (ints (dec_Z z)).
Proof.
  intro H. destruct (int_exact z H) as (f & Hf & Hi & Hr).
  rewrite (normalize_plain ints (dec_Z z) (dec_Z z)).
  - unfold str_is_int. rewrite strip_commas_plain by apply plain_num_digits, dec_Z_plain. rewrite Hf, Hi. reflexivity.
  - apply dec_Z_plain.
  - rewrite (norm_int_Z z f Hf Hi), Hr. reflexivity.
  - apply dec_Z_plain.
Qed.

(** Beyond 2^53 the literal of an odd integer is replaced by that of another integer. *)
Lemma conflated ints z : (2 ^ 53 < Z.abs z < 2 ^ 1023)%Z -> Z.odd z = true ->
  exists z', z' <> z /\ string_normalize ints (dec_Z z) = NStr (ints (dec_Z z')) /\
             string_normalize ints (dec_Z z') = NStr (ints (dec_Z z')).
Proof.
  intros H Hodd.
  assert (HD : 2 ^ 53 <= Z.abs_N z < 2 ^ 1023).
  { split; [apply N2Z.inj_le|apply N2Z.inj_lt]; rewrite N2Z.inj_abs_N;
      [change (Z.of_N (2 ^ 53)) with (2 ^ 53)%Z|change (Z.of_N (2 ^ 1023)) with (2 ^ 1023)%Z]; lia. }
  destruct (round_ratio_big (Z.abs_N z)) as (m & e & Hr & He & Hm); [lia|lia|].
  set (V := m * 2 ^ e). pose proof (pow2_pos e) as Hp.
  assert (HV : V < 2 ^ 1024).
  { unfold V. apply N.lt_le_trans with (2 ^ 53 * 2 ^ e); [apply N.mul_lt_mono_pos_r; lia|].
    rewrite <- N.pow_add_r. apply N.pow_le_mono_r; lia. }
  assert (HV0 : 0 < V) by (unfold V; nia).
  set (z' := (if z <? 0 then - Z.of_N V else Z.of_N V)%Z).
  assert (Hneg : (z' <? 0)%Z = (z <? 0)%Z) by (unfold z'; destruct (Z.ltb_spec z 0); [apply Z.ltb_lt|apply Z.ltb_ge]; lia).
  assert (Habs : Z.abs_N z' = V) by (unfold z'; destruct (z <? 0)%Z; lia).
  destruct (big_int (z <? 0)%Z m e) as [B1 B2].
  assert (F1 : py_float (dec_Z z) = Some (FFin (z <? 0)%Z m (Z.of_N e))).
  { rewrite py_float_Z, float_of_dec_big; [|lia|]. - unfold mk_float. rewrite Hr. reflexivity.
    - eapply N.lt_trans; [apply HD|]. apply N.ltb_lt. vm_compute. reflexivity. }
  assert (F2 : py_float (dec_Z z') = Some (FFin (z <? 0)%Z m (Z.of_N e))).
  { rewrite py_float_Z, Hneg, Habs, float_of_dec_big by assumption. unfold mk_float, V. rewrite round_ratio_fix by assumption. reflexivity. }
  assert (I : int_round (FFin (z <? 0)%Z m (Z.of_N e)) = Some z').
  { cbn [int_round]. rewrite B1. unfold z', V. reflexivity. }
  assert (S' : str_is_int (dec_Z z') = true).
  { unfold str_is_int. rewrite strip_commas_plain by apply plain_num_digits, dec_Z_plain. rewrite F2. exact B2. }
  exists z'. split; [|split].
  - intro E. rewrite <- E in Hodd. unfold z' in Hodd.
    assert (Hev : Z.odd (Z.of_N V) = false).
    { unfold V. rewrite N2Z.inj_mul, N2Z.inj_pow, Z.odd_mul. rewrite Z.odd_pow by lia. apply andb_false_r. }
    destruct (z <? 0)%Z; [rewrite Z.odd_opp in Hodd|]; congruence.
  - rewrite (normalize_plain ints (dec_Z z) (dec_Z z')); [rewrite S'; reflexivity|apply dec_Z_plain| |apply dec_Z_plain].
    rewrite (norm_int_Z z _ F1 B2), I. reflexivity.
  - rewrite (normalize_plain ints (dec_Z z') (dec_Z z')); [rewrite S'; reflexivity|apply dec_Z_plain| |apply dec_Z_plain].
    rewrite (norm_int_Z z' _ F2 B2), I. reflexivity.
Qed.

(** ** Other bases *)
Lemma span_unique {A} (p : A -> bool) c (w ds r t : list A) :
  forallb p w = true -> forallb p ds = true -> p c = false -> w ++ c :: r = ds ++ c :: t -> w = ds /\ r = t.
Proof.
  revert ds; induction w as [|x w IH]; intros [|d ds] Hw Hd Hc E; cbn in *.
  - injection E as <-. auto.
  - injection E as -> _. rewrite Hc in Hd. discriminate.
  - injection E as -> _. rewrite Hc in Hw. discriminate.
  - injection E as -> E. apply andb_true_iff in Hw, Hd. destruct (IH ds) as [-> ->]; tauto.
Qed.
Lemma digits_cls ds : Forall ascii_digit ds -> forallb (cls_in CDigit) ds = true.
Proof. intro F. apply forallb_forall. intros c Hc. rewrite Forall_forall in F. apply ascii_is_digit, F, Hc. Qed.

(** The value of a digit string in base [b] (Horner), digits taken at face value. *)
Fixpoint base_value_from (b acc : N) (ds : pystr) : N :=
  match ds with [] => acc | d :: ds' => base_value_from b (acc * b + (d - 48)) ds' end.
Definition base_value (b : N) (ds : pystr) : N := base_value_from b 0 ds.
Lemma base_value_from_app b ds d acc : base_value_from b acc (ds ++ [d]) = base_value_from b acc ds * b + (d - 48).
Proof. revert acc; induction ds as [|x ds IH]; intro acc; cbn [app base_value_from]; [reflexivity|apply IH]. Qed.
Lemma to_decimal_go_spec b ds : Forall ascii_digit ds -> forall pw tot,
  to_decimal_go b pw (rev ds) tot = tot + pw * base_value b ds.
Proof.
  unfold base_value. induction ds as [|d ds IH] using rev_ind; intros F pw tot.
  - cbn [rev to_decimal_go base_value_from]. lia.
  - apply Forall_app in F. destruct F as [F Fd]. inversion Fd; subst. rewrite rev_app_distr. cbn [rev app to_decimal_go].
    rewrite IH by exact F. rewrite base_value_from_app, ascii_digit_value by assumption. lia.
Qed.
Lemma str_to_decimal_spec ds bs : Forall ascii_digit ds -> Forall ascii_digit bs ->
  str_to_decimal ds bs = base_value (dec_value bs) ds.
Proof. intros F B. unfold str_to_decimal. rewrite to_decimal_go_spec by exact F. rewrite int_of_digits_value by exact B. lia. Qed.

Inductive base_written : pystr -> pystr -> Prop :=
| base_digit b : ascii_digit b -> base_written [b] [b]
| base_braces bs : Forall ascii_digit bs -> bs <> [] -> base_written bs (123 :: bs ++ [125]).

Definition base_cp : N -> bool := digits_and (u "_{}").
Lemma digit_not x : ascii_digit x -> x <> 123 /\ x <> 125 /\ x <> 95.
Proof. unfold ascii_digit. lia. Qed.
Lemma base_match ds bs t : Forall ascii_digit ds -> ds <> [] -> base_written bs t ->
  exists st, re_search base_re (ds ++ 95 :: t) = Some st /\ grp 1 st = ds /\
    match group 2 (caps st) with Some b => b | None => grp 3 st end = bs.
Proof.
  intros F Hne B. rewrite anchored_search by reflexivity.
  assert (Hd : forallb (cls_in CDigit) ds = true) by (apply digits_cls, F).
  destruct B as [b Hb|bs Fb Hbs].
  - exists (MSt (b :: 95 :: rev ds) [] [(2%nat, [b]); (1%nat, ds)]). split; [|split; reflexivity]. apply match_at_unique.
    + unfold base_re. rewrite in_rseq_cons. exists (MSt [] (ds ++ [95; b]) []). split; [apply in_bol; auto|].
      rewrite in_rseq_cons. exists (MSt (rev ds) [95; b] [(1%nat, ds)]). split.
      { apply in_grp. exists (MSt (rev ds) [95; b] []), ds. split; [|split; reflexivity]. apply in_plus_chr. exists ds, [95; b].
        rewrite app_nil_r. auto. }
      rewrite in_rseq_cons. exists (MSt (95 :: rev ds) [b] [(1%nat, ds)]). split; [apply in_chr; exists 95, [b]; auto|].
      rewrite in_rseq_cons. exists (MSt (b :: 95 :: rev ds) [] [(2%nat, [b]); (1%nat, ds)]). split.
      { apply in_alt. left. apply in_grp. exists (MSt (b :: 95 :: rev ds) [] [(1%nat, ds)]), [b]. split; [|split; reflexivity].
        apply in_chr. exists b, []. repeat split. apply ascii_is_digit, Hb. }
      rewrite in_rseq_cons. eexists. split; [apply in_eol; split; reflexivity|]. apply in_rseq_nil. reflexivity.
    + unfold base_re. intros st' H. rewrite in_rseq_cons in H. destruct H as (s1 & H1 & H). apply in_bol in H1. destruct H1 as [_ ->].
      rewrite in_rseq_cons in H. destruct H as (s2 & H1 & H). apply in_grp in H1. destruct H1 as (s3 & w & H1 & E & ->).
      apply in_plus_chr in H1. destruct H1 as (w' & r & E' & Hw & Hw' & ->). cbn [after before caps] in *.
      rewrite in_rseq_cons in H. destruct H as (s4 & H1 & H). apply in_chr in H1. destruct H1 as (c & r' & -> & Hc & ->).
      cbn [cls_in] in Hc. apply N.eqb_eq in Hc. subst c. symmetry in E'. apply (span_unique (cls_in CDigit)) in E'; auto.
      destruct E' as [-> ->]. assert (w = ds) as ->. { symmetry in E. apply app_inv_tail in E. exact E. }
      rewrite in_rseq_cons in H. destruct H as (s5 & H1 & H). apply in_alt in H1. destruct H1 as [H1|H1].
      * apply in_grp in H1. destruct H1 as (s6 & v & H1 & Ev & ->). apply in_chr in H1. destruct H1 as (c & r2 & [= <- <-] & _ & ->).
        cbn [after before caps] in *. rewrite in_rseq_cons in H. destruct H as (s7 & H1 & H). apply in_eol in H1. destruct H1 as [_ ->].
        apply in_rseq_nil in H. subst st'. change [b] with ([b] ++ []) in Ev at 1. apply app_inv_tail in Ev. subst v.
        rewrite app_nil_r. reflexivity.
      * exfalso. rewrite in_rseq_cons in H1. destruct H1 as (s6 & H1 & _). apply in_chr in H1. destruct H1 as (c & r2 & [= <- <-] & Hc & _).
        cbn [cls_in] in Hc. apply N.eqb_eq in Hc. unfold ascii_digit in Hb. lia.
  - assert (Hb : forallb (cls_in CDigit) bs = true) by (apply digits_cls, Fb).
    exists (MSt (125 :: rev bs ++ 123 :: 95 :: rev ds) [] [(3%nat, bs); (1%nat, ds)]). split; [|split; reflexivity]. apply match_at_unique.
    + unfold base_re. rewrite in_rseq_cons. exists (MSt [] (ds ++ 95 :: 123 :: bs ++ [125]) []). split; [apply in_bol; auto|].
      rewrite in_rseq_cons. exists (MSt (rev ds) (95 :: 123 :: bs ++ [125]) [(1%nat, ds)]). split.
      { apply in_grp. exists (MSt (rev ds) (95 :: 123 :: bs ++ [125]) []), ds. split; [|split; reflexivity]. apply in_plus_chr.
        exists ds, (95 :: 123 :: bs ++ [125]). rewrite app_nil_r. auto. }
      rewrite in_rseq_cons. exists (MSt (95 :: rev ds) (123 :: bs ++ [125]) [(1%nat, ds)]). split; [apply in_chr; eexists 95, _; auto|].
      rewrite in_rseq_cons. exists (MSt (125 :: rev bs ++ 123 :: 95 :: rev ds) [] [(3%nat, bs); (1%nat, ds)]). split.
      { apply in_alt. right. rewrite in_rseq_cons. exists (MSt (123 :: 95 :: rev ds) (bs ++ [125]) [(1%nat, ds)]).
        split; [apply in_chr; eexists 123, _; auto|].
        rewrite in_rseq_cons. exists (MSt (rev bs ++ 123 :: 95 :: rev ds) [125] [(3%nat, bs); (1%nat, ds)]). split.
        { apply in_grp. exists (MSt (rev bs ++ 123 :: 95 :: rev ds) [125] [(1%nat, ds)]), bs. split; [|split; reflexivity].
          apply in_plus_chr. exists bs, [125]. auto. }
        rewrite in_rseq_cons. eexists. split; [apply in_chr; exists 125, []; auto|]. apply in_rseq_nil. reflexivity. }
      rewrite in_rseq_cons. eexists. split; [apply in_eol; split; reflexivity|]. apply in_rseq_nil. reflexivity.
    + unfold base_re. intros st' H. rewrite in_rseq_cons in H. destruct H as (s1 & H1 & H). apply in_bol in H1. destruct H1 as [_ ->].
      rewrite in_rseq_cons in H. destruct H as (s2 & H1 & H). apply in_grp in H1. destruct H1 as (s3 & w & H1 & E & ->).
      apply in_plus_chr in H1. destruct H1 as (w' & r & E' & Hw & Hw' & ->). cbn [after before caps] in *.
      rewrite in_rseq_cons in H. destruct H as (s4 & H1 & H). apply in_chr in H1. destruct H1 as (c & r' & -> & Hc & ->).
      cbn [cls_in] in Hc. apply N.eqb_eq in Hc. subst c. symmetry in E'. apply (span_unique (cls_in CDigit)) in E'; auto.
      destruct E' as [-> ->]. assert (w = ds) as ->. { symmetry in E. apply app_inv_tail in E. exact E. }
      rewrite in_rseq_cons in H. destruct H as (s5 & H1 & H). apply in_alt in H1. destruct H1 as [H1|H1].
      * exfalso. apply in_grp in H1. destruct H1 as (s6 & v & H1 & Ev & ->). apply in_chr in H1. destruct H1 as (c & r2 & [= <- <-] & Hc & _).
        discriminate Hc.
      * rewrite in_rseq_cons in H1. destruct H1 as (s6 & H1 & H2). apply in_chr in H1. destruct H1 as (c & r2 & [= <- <-] & _ & ->).
        rewrite in_rseq_cons in H2. destruct H2 as (s7 & H1 & H2). apply in_grp in H1. destruct H1 as (s8 & v & H1 & Ev & ->).
        apply in_plus_chr in H1. destruct H1 as (w'' & r & E'' & _ & Hw'' & ->). cbn [after before caps] in *.
        rewrite in_rseq_cons in H2. destruct H2 as (s9 & H1 & H2). apply in_chr in H1. destruct H1 as (c & r' & -> & Hc & ->).
        cbn [cls_in] in Hc. apply N.eqb_eq in Hc. subst c. symmetry in E''. apply (span_unique (cls_in CDigit)) in E''; auto.
        destruct E'' as [-> ->]. apply app_inv_tail in Ev. subst v. apply in_rseq_nil in H2. subst s5.
        rewrite in_rseq_cons in H. destruct H as (s7 & H1 & H). apply in_eol in H1. destruct H1 as [_ ->].
        apply in_rseq_nil in H. subst st'. rewrite app_nil_r. reflexivity.
Qed.
Lemma base_cp_inert_head s : forallb base_cp s = true -> forall ints,
  string_normalize ints s = norm_tail ints s.
Proof.
  intros Hs ints. unfold string_normalize.
  assert (Hsp : strip_sp s = s) by (apply strip_sp_id, (alpha_not_in base_cp); [reflexivity|exact Hs]).
  assert (Hm : str_matrix_normalize s = s).
  { unfold str_matrix_normalize.
    rewrite (alpha_contains base_cp (u "{cases}")), (alpha_contains base_cp (u "{array}")) by (reflexivity || exact Hs).
    destruct (negb _); [|reflexivity]. apply (alpha_replace base_cp); [reflexivity|exact Hs]. }
  destruct (2 * length s)%nat as [|n]; cbn [norm_fuel]; rewrite Hsp, Hm;
    rewrite (alpha_search base_cp text_wrap_re), (alpha_search base_cp set_builder_re) by (exact Hs || (vm_compute; reflexivity)); reflexivity.
Qed.
Lemma normalize_base ints ds bs t : Forall ascii_digit ds -> ds <> [] -> base_written bs t ->
  string_normalize ints (ds ++ 95 :: t) = NSet [ds; dec_N (base_value (dec_value bs) ds)].
Proof.
  intros F Hne B. destruct (base_match ds bs t F Hne B) as (st & Hst & G1 & G2).
  assert (Fb : Forall ascii_digit bs) by (destruct B; auto).
  assert (Hs : forallb base_cp (ds ++ 95 :: t) = true).
  { rewrite forallb_app. unfold base_cp at 1. rewrite digits_and_digit by exact F. cbn [andb forallb]. change (base_cp 95) with true.
    destruct B as [b Hb|bs' Fb' _].
    - cbn [andb]. apply (digits_and_digit (u "_{}") [b]). exact Fb.
    - cbn [andb forallb]. change (base_cp 123) with true. rewrite forallb_app. unfold base_cp at 1. rewrite digits_and_digit by exact Fb. reflexivity. }
  rewrite base_cp_inert_head by exact Hs. unfold norm_tail.
  assert (Hdel : del_tex_space (ds ++ 95 :: t) = ds ++ 95 :: t).
  { unfold del_tex_space, re_del. rewrite ?(fun r q => alpha_sub base_cp r q (ds ++ 95 :: t)) by (exact Hs || (vm_compute; reflexivity)). reflexivity. }
  rewrite Hdel, Hst, G2, G1. rewrite str_to_decimal_spec by assumption. reflexivity.
Qed.
