(** What string_normalize makes of decimal literals. *)
From Coq Require Import String List NArith ZArith QArith Qabs Bool Lia Lqa.
From Verif Require Import PyStr PyStrTheory Float64 NumTheory FloatTheory FloatError Normalize Monad Eval EvalTheory EvalTheory2 NormNum NormProps Arith.
Import ListNotations.
Local Open Scope N_scope.

Definition dec_text (neg : bool) (ds fs : pystr) : pystr := (if neg then [45] else []) ++ ds ++ 46 :: fs.
(** the number without its sign *)
Definition magnitude (ds fs : pystr) : Q := decq (dec_value (ds ++ fs)) (N.of_nat (length fs)).
Lemma magnitude_fraction ds fs : fs <> [] -> (magnitude ds fs == dec_fraction ds fs)%Q.
Proof.
  intro H. unfold magnitude, decq, dec_fraction. assert (E : qn (10 ^ N.of_nat (length fs)) = inject_Z (Zpos (Pos.pow 10 (Pos.of_nat (length fs))))).
  { unfold qn. f_equal. destruct fs as [|c fs]; [congruence|]. cbn [length]. rewrite N2Z.inj_pow, nat_N_Z. change (Z.of_N 10) with 10%Z.
    rewrite Pos2Z.inj_pow. f_equal. rewrite <- Pos.of_nat_succ. lia. }
  rewrite E. unfold qn, Qdiv, Qinv, inject_Z, Qmult, Qeq. cbn [Qnum Qden]. lia.
Qed.
Lemma parse_unsigned_dec neg ds fs : numeral ds -> numeral fs ->
  parse_unsigned neg (ds ++ 46 :: fs) = Some (float_of_dec neg (dec_value (ds ++ fs)) (- Z.of_N (N.of_nat (length fs)))).
Proof.
  intros [F N] [G M]. destruct ds as [|c ds]; [congruence|]. inversion F as [|? ? Hc F']; subst. unfold parse_unsigned. pose proof (lower_digit c Hc) as Hl.
  assert (c <> 105 /\ c <> 110) as [N1 N2] by (unfold ascii_digit in Hc; lia).
  change (u "inf") with (105 :: u "nf"). change (u "infinity") with (105 :: u "nfinity"). change (u "nan") with (110 :: u "an").
  change ((c :: ds) ++ 46 :: fs) with (c :: ds ++ 46 :: fs) at 1 2 3.
  rewrite !lower_not by assumption. cbn [orb]. rewrite (span_digits_app (c :: ds) (46 :: fs) F eq_refl).
  rewrite <- (app_nil_r fs) at 1. rewrite (span_digits_app fs [] G I). cbn [app parse_exponent]. rewrite ascii_int_dec.
  rewrite nat_N_Z. change (0 - Z.of_nat (length fs))%Z with (- Z.of_nat (length fs))%Z. reflexivity.
Qed.
Lemma dec_text_plain neg ds fs : numeral ds -> numeral fs -> forallb plain_num (dec_text neg ds fs) = true.
Proof.
  intros [F _] [G _]. unfold dec_text. rewrite !forallb_app. cbn [forallb]. change (plain_num 46) with true.
  rewrite (plain_digits ds F), (plain_digits fs G). destruct neg; reflexivity.
Qed.
Lemma py_float_dec neg ds fs : numeral ds -> numeral fs ->
  py_float (dec_text neg ds fs) = Some (float_of_dec neg (dec_value (ds ++ fs)) (- Z.of_N (N.of_nat (length fs)))).
Proof.
  intros F G. rewrite py_float_plain by (apply plain_num_digits, dec_text_plain; assumption). unfold dec_text. destruct neg; cbn [app].
  - cbn [read_signed]. apply parse_unsigned_dec; assumption.
  - destruct F as [F N]. destruct ds as [|c ds]; [congruence|]. inversion F; subst. cbn [app]. rewrite read_signed_digit by assumption.
    apply (parse_unsigned_dec false (c :: ds) fs); [split; assumption|assumption].
Qed.
Lemma digits_length fs : numeral fs -> N.of_nat (length fs) <> 0.
Proof. intros [_ M]. destruct fs; [congruence|]. cbn [length]. lia. Qed.

(** Away from the integers by more than 1e-7 (and the rounding error): unchanged *)
Theorem decimal_kept ints neg ds fs : numeral ds -> numeral fs ->
  (forall z, 1 # 10000000 < Qabs (magnitude ds fs - qn z) - slack (magnitude ds fs))%Q ->
  string_normalize ints (dec_text neg ds fs) = NStr (dec_text neg ds fs).
Proof.
  intros F G H. destruct (dec_noninteger neg _ _ (digits_length fs G) H) as (m & e & E & I).
  pose proof (py_float_dec neg ds fs F G) as P. rewrite E in P.
  rewrite (normalize_plain ints _ (dec_text neg ds fs)).
  - unfold str_is_int. rewrite strip_commas_plain by (apply plain_num_digits, dec_text_plain; assumption). rewrite P, I. reflexivity.
  - apply dec_text_plain; assumption.
  - unfold norm_int. rewrite P, I. reflexivity.
  - apply dec_text_plain; assumption.
Qed.
(** Such numbers are small. *)
Lemma near_small ds fs z : (Qabs (magnitude ds fs - qn z) + slack (magnitude ds fs) <= 1 # 10000000)%Q -> (magnitude ds fs < qn (2 ^ 50))%Q /\ z <= 2 ^ 53.
Proof.
  intro H. pose proof (decq_nonneg (dec_value (ds ++ fs)) (N.of_nat (length fs))) as X0. fold (magnitude ds fs) in X0. set (x := magnitude ds fs) in *. clearbody x. unfold slack in H.
  assert (S50 : (x / two 50 == x * (1 # 1125899906842624))%Q) by reflexivity. rewrite S50 in H. clear S50.
  pose proof (Qabs_nonneg (x - qn z)) as A0.
  assert (Qabs (qn z - x) <= 1 # 10000000)%Q as A1 by (rewrite Qabs_Qminus; lra). apply abs_le in A1.
  assert (x < qn (2 ^ 50))%Q by (change (qn (2 ^ 50)) with (1125899906842624 # 1); lra).
  split; [assumption|]. apply qn_le. change (qn (2 ^ 53)) with (9007199254740992 # 1). change (qn (2 ^ 50)) with (1125899906842624 # 1) in *. lra.
Qed.
Definition signed (neg : bool) (z : N) : Z := if neg then (- Z.of_N z)%Z else Z.of_N z.
Lemma near_range ds fs z neg : (Qabs (magnitude ds fs - qn z) + slack (magnitude ds fs) <= 1 # 10000000)%Q -> (- 2 ^ 53 <= signed neg z <= 2 ^ 53)%Z.
Proof.
  intro H. destruct (near_small ds fs z H) as [_ X]. change (2 ^ 53)%Z with 9007199254740992%Z. change (2 ^ 53) with 9007199254740992 in X. unfold signed. destruct neg; lia.
Qed.
(** Within 1e-7 of an integer: that integer *)
Theorem decimal_rounded ints neg ds fs z : numeral ds -> numeral fs ->
  (Qabs (magnitude ds fs - qn z) + slack (magnitude ds fs) <= 1 # 10000000)%Q ->
  string_normalize ints (dec_text neg ds fs) = NStr (ints (dec_Z (signed neg z))).
Proof.
  intros F G H. pose proof (near_range ds fs z neg H) as W. destruct (near_small ds fs z H) as [X1 _].
  destruct (dec_integer neg (dec_value (ds ++ fs)) (N.of_nat (length fs)) z (digits_length fs G)) as (m & e & E & I & R); [|exact H|].
  { eapply Qlt_le_trans; [exact X1|]. exact (proj1 (qn_le (2 ^ 50) (10 ^ 300)) (proj1 (N.leb_le (2 ^ 50) (10 ^ 300)) ltac:(vm_compute; reflexivity))). }
  pose proof (py_float_dec neg ds fs F G) as P. rewrite E in P.
  rewrite (normalize_plain ints _ (dec_Z (signed neg z))).
  - destruct (int_exact (signed neg z) W) as (f & Hf & Hi & _). unfold str_is_int.
    rewrite strip_commas_plain by apply plain_num_digits, dec_Z_plain. rewrite Hf, Hi. reflexivity.
  - apply dec_text_plain; assumption.
  - unfold norm_int. rewrite P, I. change (u "e") with [101]. rewrite contains_single_not.
    + cbn [int_round]. rewrite R. reflexivity.
    + destruct F as [F _], G as [G _]. rewrite Forall_forall in F, G. unfold dec_text. rewrite !in_app_iff. cbn [In].
      intros [K|[K|[K|K]]]; [destruct neg; cbn in K; [destruct K as [K|[]]|destruct K]; discriminate|apply F in K; unfold ascii_digit in K; lia|discriminate|apply G in K; unfold ascii_digit in K; lia].
  - apply dec_Z_plain.
Qed.
(** is_equiv accepts them for that integer. *)
Theorem near_integer_accepted (W : World) n neg ds fs z st : numeral ds -> numeral fs ->
  (Qabs (magnitude ds fs - qn z) + slack (magnitude ds fs) <= 1 # 10000000)%Q ->
  is_equiv W (S n) (Some (dec_text neg ds fs)) (Some (dec_Z (signed neg z))) st = (Ret true, st).
Proof.
  intros F G H. apply (is_equiv_same_norm W n _ _ _ (decimal_rounded (int_str W) neg ds fs z F G H) (normalize_int (int_str W) _ (near_range ds fs z neg H))).
Qed.
(** and for each other *)
Theorem near_integers_conflated (W : World) n neg ds fs ds' fs' z st : numeral ds -> numeral fs -> numeral ds' -> numeral fs' ->
  (Qabs (magnitude ds fs - qn z) + slack (magnitude ds fs) <= 1 # 10000000)%Q -> (Qabs (magnitude ds' fs' - qn z) + slack (magnitude ds' fs') <= 1 # 10000000)%Q ->
  is_equiv W (S n) (Some (dec_text neg ds fs)) (Some (dec_text neg ds' fs')) st = (Ret true, st).
Proof.
  intros F G F' G' H H'. apply (is_equiv_same_norm W n _ _ _ (decimal_rounded (int_str W) neg ds fs z F G H) (decimal_rounded (int_str W) neg ds' fs' z F' G' H')).
Qed.
