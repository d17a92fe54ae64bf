(** repr of a float: the shortest digits that read back, and their text (CPython's float_repr_style 'short'). *)
From Coq Require Import String List NArith ZArith QArith Qabs Qpower Bool Lia Lqa Arith.
From Verif Require Import PyStr PyStrTheory Float64 NumTheory FloatTheory NormNum NormSci FloatError FloatRound.
Import ListNotations.
Local Open Scope N_scope.

(** ** Specification: D * 10^t *)
Definition ten (t : Z) : Q := Qpower 10 t.
Definition dv (D : N) (t : Z) : Q := (qn D * ten t)%Q.

Lemma ten_gt0 t : (0 < ten t)%Q.
Proof. apply pow10_pos. Qed.
Lemma ten_add a b : (ten (a + b) == ten a * ten b)%Q.
Proof. apply Qpower_plus. discriminate. Qed.
Lemma ten_nat n : (qn (10 ^ n) == ten (Z.of_N n))%Q.
Proof. exact (injN_pow 10 n). Qed.
Lemma ten_opp t : (ten t * ten (- t) == 1)%Q.
Proof. rewrite <- ten_add, Z.add_opp_diag_r. reflexivity. Qed.
Lemma ten_le a b : (a <= b)%Z -> (ten a <= ten b)%Q.
Proof. intro H. apply Qpower_le_compat_l; [exact H|discriminate]. Qed.
Lemma ten_lt_inv a b : (ten a < ten b)%Q -> (a < b)%Z.
Proof. intro H. destruct (Z_lt_le_dec a b) as [L|L]; [exact L|]. apply ten_le in L. lra. Qed.

(** ** Reading a decimal *)
Definition dec_num (D : N) (t : Z) : N := if (0 <=? t)%Z then D * 10 ^ Z.to_N t else D.
Definition dec_den (t : Z) : N := if (0 <=? t)%Z then 1 else 10 ^ Z.to_N (- t).
Lemma dec_den_pos t : dec_den t <> 0.
Proof. unfold dec_den. destruct (0 <=? t)%Z; [discriminate|apply ten_pos]. Qed.
Lemma dec_ratio D t : (qn (dec_num D t) / qn (dec_den t) == dv D t)%Q.
Proof.
  unfold dec_num, dec_den, dv. destruct (Z.leb_spec 0 t) as [H|H].
  - rewrite qn_mul, ten_nat, Z2N.id by lia. change (qn 1) with 1%Q. field.
  - rewrite ten_nat, Z2N.id by lia. pose proof (ten_gt0 (- t)). pose proof (ten_opp t). apply (Qmult_inj_r _ _ (ten (- t))); [lra|].
    transitivity (qn D)%Q; [field; lra|]. transitivity (qn D * (ten t * ten (- t)))%Q; [rewrite H1; ring|ring].
Qed.
Definition places (D : N) : Z := Z.of_nat (length (dec_N D)).
Lemma places_spec D t : D <> 0 -> (ten (places D + t - 1) <= dv D t)%Q /\ (dv D t < ten (places D + t))%Q.
Proof.
  intro H. destruct (dec_N_length_ge D ltac:(lia)) as [L1 L2]. unfold places. set (n := length (dec_N D)) in *.
  assert (Hn : (n <> 0)%nat) by (intros G; rewrite G in L2; cbn in L2; lia). clearbody n.
  apply qn_le in L1. apply qn_lt in L2. rewrite ten_nat in L1, L2. pose proof (ten_gt0 t) as P. unfold dv. split.
  - replace (Z.of_nat n + t - 1)%Z with (Z.of_N (N.of_nat (n - 1)) + t)%Z by lia. rewrite ten_add. apply Qmult_le_compat_r; lra.
  - replace (Z.of_nat n + t)%Z with (Z.of_N (N.of_nat n) + t)%Z by lia. rewrite ten_add. apply Qmult_lt_compat_r; lra.
Qed.
Lemma float_of_dec_form neg D t : D <> 0 -> float_of_dec neg D t =
  if (310 <? places D + t)%Z then FInf neg else if (places D + t <? -330)%Z then FFin neg 0 0%Z else mk_float neg (dec_num D t) (dec_den t).
Proof.
  intro H. unfold float_of_dec. destruct (N.eqb_spec D 0) as [G|_]; [contradiction|]. fold (places D).
  destruct (310 <? places D + t)%Z; [reflexivity|]. destruct (places D + t <? -330)%Z; [reflexivity|].
  unfold dec_num, dec_den. destruct (0 <=? t)%Z; reflexivity.
Qed.
(** only the value matters *)
Lemma float_of_dec_ext neg D t D' t' : D <> 0 -> (dv D t == dv D' t')%Q -> float_of_dec neg D t = float_of_dec neg D' t'.
Proof.
  intros H E. assert (H' : D' <> 0).
  { intros ->. unfold dv in E. change (qn 0) with 0%Q in E. pose proof (qn_pos D H). pose proof (ten_gt0 t). assert (0 < qn D * ten t)%Q by nra. lra. }
  rewrite !float_of_dec_form by assumption.
  assert (P : (places D + t = places D' + t')%Z).
  { destruct (places_spec D t H) as [A B]. destruct (places_spec D' t' H') as [A' B']. rewrite E in A, B.
    assert (ten (places D + t - 1) < ten (places D' + t'))%Q as X by lra. assert (ten (places D' + t' - 1) < ten (places D + t))%Q as Y by lra.
    apply ten_lt_inv in X. apply ten_lt_inv in Y. lia. }
  rewrite P. destruct (310 <? _)%Z; [reflexivity|]. destruct (_ <? -330)%Z; [reflexivity|]. unfold mk_float.
  rewrite (round_ext (dec_num D t) (dec_den t) (dec_num D' t') (dec_den t')); [reflexivity|apply dec_den_pos|apply dec_den_pos|].
  pose proof (dec_ratio D t) as R. pose proof (dec_ratio D' t') as R'. rewrite E, <- R' in R.
  pose proof (qn_pos _ (dec_den_pos t)) as P1. pose proof (qn_pos _ (dec_den_pos t')) as P2.
  enough (G : (qn (dec_num D t * dec_den t') == qn (dec_num D' t' * dec_den t))%Q). { unfold qn, Qeq in G. cbn in G. lia. }
  rewrite !qn_mul. set (a := qn (dec_num D t)) in *. set (a' := qn (dec_num D' t')) in *. set (b := qn (dec_den t)) in *. set (b' := qn (dec_den t')) in *.
  transitivity (a / b * (b * b'))%Q; [field; lra|]. rewrite R. field. lra.
Qed.
Lemma float_of_dec_sign neg D t s m e : float_of_dec neg D t = FFin s m e -> s = neg /\ forall neg', float_of_dec neg' D t = FFin neg' m e.
Proof.
  unfold float_of_dec. destruct (D =? 0); [intros [= <- <- <-]; split; [|intro]; reflexivity|].
  destruct (310 <? _)%Z; [discriminate|]. destruct (_ <? -330)%Z; [intros [= <- <- <-]; split; [|intro]; reflexivity|].
  destruct (0 <=? t)%Z; unfold mk_float; destruct (round_ratio _ _) as [[m' e']|]; intros [= <- <- <-]; (split; [reflexivity|]); intro; reflexivity.
Qed.
(** what reads back is read as that very float *)
Lemma reads_back D t m e : double m e -> dec_reads_back D t m e = true -> D <> 0 /\ forall neg, float_of_dec neg D t = FFin neg m e.
Proof.
  intros H R. unfold dec_reads_back in R. assert (M0 : m <> 0) by (unfold double in H; lia).
  assert (Z0 : forall e', fin_eqb 0 e' m e = true -> False).
  { intros e' G. unfold fin_eqb in G. apply N.eqb_eq in G. rewrite N.mul_0_l in G. symmetry in G. apply N.mul_eq_0 in G. destruct G as [G|G]; [contradiction|]. apply pow2_pos in G. exact G. }
  assert (D0 : D <> 0). { intros ->. cbn in R. exact (Z0 _ R). }
  split; [exact D0|]. intro neg. destruct (float_of_dec false D t) as [| |s m' e'] eqn:F; try discriminate R.
  destruct (float_of_dec_sign false D t s m' e' F) as [_ G]. rewrite G. f_equal; [|].
  all: rewrite float_of_dec_form in F by exact D0; destruct (310 <? _)%Z; [discriminate F|]; destruct (_ <? -330)%Z; [injection F as <- <- <-; destruct (Z0 _ R)|].
  all: unfold mk_float in F; destruct (round_ratio (dec_num D t) (dec_den t)) as [[m1 e1]|] eqn:RR; [|discriminate F]; injection F as <- <- <-.
  all: assert (DN : dec_num D t <> 0) by (unfold dec_num; destruct (0 <=? t)%Z; [apply N.neq_mul_0; split; [exact D0|apply ten_pos]|exact D0]).
  all: destruct (round_double _ _ (dec_den_pos t) DN m1 e1 RR) as [[-> _]|Dd]; [destruct (Z0 _ R)|].
  all: apply (double_unique m e m1 e1 H Dd R).
Qed.
Lemma close_reads_back D t m e : double m e -> D <> 0 -> (Qabs (fval m e - dv D t) * 2 < two e)%Q -> (m = 2 ^ 52 -> (Qabs (fval m e - dv D t) * 4 < two e)%Q) ->
  dec_reads_back D t m e = true.
Proof.
  intros H D0 C2 C4. unfold dec_reads_back. rewrite float_of_dec_form by exact D0.
  assert (C' : (fval m e - dv D t <= Qabs (fval m e - dv D t) /\ - (fval m e - dv D t) <= Qabs (fval m e - dv D t))%Q) by (apply abs_le; lra). destruct C' as [C5 C6].
  pose proof (two_pos e) as PE. destruct (places_spec D t D0) as [P1 P2].
  assert (B : (dv D t < two 1024)%Q /\ (two (- 1075) < dv D t)%Q).
  { unfold fval in *. split.
    - assert (U : (qn m + 1 <= qn (2 ^ 53))%Q) by (change 1%Q with (qn 1); rewrite <- qn_add; apply qn_le; unfold double in H; lia).
      assert (X : ((qn m + 1) * two e <= qn (2 ^ 53) * two e)%Q) by (apply Qmult_le_compat_r; lra).
      assert (Y : (qn (2 ^ 53) * two e <= two 1024)%Q) by (rewrite two_nat, <- two_add; apply two_le; unfold double in H; lia). lra.
    - assert (U : (1 <= qn m)%Q) by (change 1%Q with (qn 1); apply qn_le; unfold double in H; lia).
      assert (X : (1 * two e <= qn m * two e)%Q) by (apply Qmult_le_compat_r; lra).
      assert (Y : (two (-1074) <= two e)%Q) by (apply two_le; unfold double in H; lia).
      assert (Z : (two (-1074) == 2 * two (-1075))%Q) by (change 2%Q with (two 1) at 1; rewrite <- two_add; reflexivity). lra. }
  destruct B as [B1 B2].
  destruct (Z.ltb_spec 310 (places D + t)) as [G|_].
  { exfalso. assert (ten 310 <= ten (places D + t - 1))%Q by (apply ten_le; lia). assert (two 1024 <= ten 310)%Q by (vm_compute; discriminate). lra. }
  destruct (Z.ltb_spec (places D + t) (-330)) as [G|_].
  { exfalso. assert (ten (places D + t) <= ten (-330))%Q by (apply ten_le; lia). assert (ten (-330) <= two (-1075))%Q by (vm_compute; discriminate). lra. }
  unfold mk_float. assert (DN : dec_num D t <> 0) by (unfold dec_num; destruct (0 <=? t)%Z; [apply N.neq_mul_0; split; [exact D0|apply ten_pos]|exact D0]).
  rewrite (round_back _ _ (dec_den_pos t) DN m e H); [unfold fin_eqb; apply N.eqb_refl| |].
  - rewrite dec_ratio. exact C2.
  - intro G. rewrite dec_ratio. exact (C4 G).
Qed.

(** ** The search for the shortest digits *)
Definition candidate (m : N) (e : Z) (a b : N) (decpt k : Z) : bool :=
  let (a', b') := scale10 a b (k - decpt) in dec_reads_back (a' / b') (decpt - k) m e || dec_reads_back (a' / b' + 1) (decpt - k) m e.
Lemma shortest_finds fuel m e a b decpt k0 : forall k, candidate m e a b decpt k0 = true -> (k <= k0 < k + Z.of_nat fuel)%Z ->
  exists D j, shortest fuel k m e a b decpt = (D, (decpt - j)%Z) /\ (k <= j <= k0)%Z /\ dec_reads_back D (decpt - j) m e = true.
Proof.
  intros k C. revert k. induction fuel as [|f IH]; intros k L; [lia|]. cbn [shortest].
  unfold candidate in C. destruct (scale10 a b (k - decpt)) as [a' b'] eqn:S.
  destruct (dec_reads_back (a' / b') (decpt - k) m e) eqn:O1; destruct (dec_reads_back (a' / b' + 1) (decpt - k) m e) eqn:O2; cbn [andb negb orb].
  - destruct (2 * (a' mod b') <=? b'); [exists (a' / b'), k|exists (a' / b' + 1), k]; (split; [reflexivity|]); split; assumption || lia.
  - exists (a' / b'), k. split; [reflexivity|]. split; [lia|exact O1].
  - exists (a' / b' + 1), k. split; [reflexivity|]. split; [lia|exact O2].
  - destruct (Z.eq_dec k k0) as [->|Ne]; [rewrite S, O1, O2 in C; discriminate C|].
    destruct (IH (k + 1)%Z ltac:(lia)) as (D & j & E & L' & R). exists D, j. split; [exact E|]. split; [lia|exact R].
Qed.
Lemma decpt_bounds m e a b : double m e -> ratio_of m e = (a, b) -> 0 < a /\ 0 < b /\ (frac_q a b == fval m e)%Q /\ (ten (decpt_of a b - 1) <= fval m e)%Q /\ (fval m e < ten (decpt_of a b))%Q.
Proof.
  intros H R. pose proof (ratio_of_q m e) as Q. rewrite R in Q. destruct Q as (Hb & Ha & Rq). assert (Hm : 0 < m) by (unfold double in H; lia). specialize (Ha Hm).
  assert (Low : b <= a * 10 ^ 400).
  { unfold ratio_of, scale2 in R. assert (He : (-1074 <= e)%Z) by (unfold double in H; lia). destruct (Z.leb_spec 0 (- e)) as [G|G]; pose proof (f_equal fst R) as Ra; pose proof (f_equal snd R) as Rb; cbn [fst snd] in Ra, Rb; rewrite <- Ra, <- Rb.
    - rewrite N.mul_1_l. assert (2 ^ Z.to_N (- e) <= 2 ^ 1074) by (apply N.pow_le_mono_r; lia).
      assert (2 ^ 1074 <= 10 ^ 400) by (apply N.leb_le; vm_compute; reflexivity).
      set (p := 2 ^ 1074) in *. set (q := 10 ^ 400) in *. set (r := 2 ^ Z.to_N (- e)) in *. clearbody p q r. nia.
    - assert (1 <= 10 ^ 400) by (apply N.leb_le; vm_compute; reflexivity). pose proof (pow2_pos (Z.to_N (- - e))).
      set (q := 10 ^ 400) in *. set (r := 2 ^ Z.to_N (- - e)) in *. clearbody q r. nia. }
  pose proof (decpt_of_spec a b Ha Hb Low) as S. pose proof (scale10_q a b (7 - decpt_of a b) Hb) as Sq. set (d := decpt_of a b) in *. clearbody d.
  destruct (scale10 a b (7 - d)) as [a' b']. destruct S as (Hb' & S1 & S2). destruct Sq as [_ Sq].
  split; [exact Ha|]. split; [exact Hb|]. split; [exact Rq|]. rewrite Rq in Sq. change (float_abs m e) with (fval m e) in Sq. change (frac_q a' b') with (qn a' / qn b')%Q in Sq. fold (ten (7 - d)) in Sq.
  pose proof (qn_pos b' ltac:(lia)) as PB. pose proof (ten_gt0 (7 - d)) as P7.
  apply qn_le in S1. apply qn_lt in S2. rewrite qn_mul, ten_nat in S1, S2.
  assert (A : (qn a' == fval m e * ten (7 - d) * qn b')%Q) by (rewrite <- Sq; field; lra).
  rewrite A in S1, S2. apply Qmult_le_r in S1; [|exact PB]. apply Qmult_lt_r in S2; [|exact PB]. split.
  - apply (Qmult_le_r _ _ (ten (7 - d))); [exact P7|]. rewrite <- ten_add. replace (d - 1 + (7 - d))%Z with (Z.of_N 6) by lia. exact S1.
  - apply (Qmult_lt_r _ _ (ten (7 - d))); [exact P7|]. rewrite <- ten_add. replace (d + (7 - d))%Z with (Z.of_N 7) by lia. exact S2.
Qed.
Lemma seventeen m e a b : double m e -> ratio_of m e = (a, b) -> candidate m e a b (decpt_of a b) 17 = true.
Proof.
  intros H R. destruct (decpt_bounds m e a b H R) as (Ha & Hb & Rq & L1 & L2). unfold candidate. set (d := decpt_of a b) in *. clearbody d.
  pose proof (scale10_q a b (17 - d) Hb) as Sq. destruct (scale10 a b (17 - d)) as [a' b']. destruct Sq as [Hb' Sq].
  rewrite Rq in Sq. change (frac_q a' b') with (qn a' / qn b')%Q in Sq. fold (ten (17 - d)) in Sq. pose proof (qn_pos b' ltac:(lia)) as PB.
  assert (A : (qn a' == fval m e * ten (17 - d) * qn b')%Q) by (rewrite <- Sq; field; lra).
  pose proof (N.div_mod a' b' ltac:(lia)) as DM. pose proof (N.mod_lt a' b' ltac:(lia)) as ML. set (lo := a' / b') in *. set (r := a' mod b') in *. clearbody lo r.
  assert (G : (qn a' == qn b' * qn lo + qn r)%Q) by (rewrite DM at 1; rewrite qn_add, qn_mul; reflexivity).
  pose proof (two_pos e) as PE. pose proof (ten_gt0 (17 - d)) as PT. pose proof (ten_gt0 (d - 17)) as PT'.
  assert (TT : (ten (d - 17) * ten (17 - d) == 1)%Q) by (rewrite <- ten_add; replace (d - 17 + (17 - d))%Z with 0%Z by lia; reflexivity).
  assert (T16 : (ten (17 - d) * ten (d - 1) == ten 16)%Q) by (rewrite <- ten_add; f_equiv; lia).
  assert (KEY : forall D, (Qabs (qn D * qn b' - qn a') * 2 <= qn b')%Q -> dec_reads_back D (d - 17) m e = true).
  { intros D Near. assert (Nq : (Qabs (fval m e - dv D (d - 17)) * 2 <= ten (d - 17))%Q).
    { apply (Qmult_le_r _ _ (qn b' * ten (17 - d))); [nra|].
      assert (Qabs (fval m e - dv D (d - 17)) * 2 * (qn b' * ten (17 - d)) == Qabs (qn D * qn b' - qn a') * 2)%Q as ->.
      - transitivity (Qabs (fval m e - dv D (d - 17)) * (qn b' * ten (17 - d)) * 2)%Q; [ring|]. rewrite abs_scale by nra. f_equiv. rewrite <- (Qabs_opp (_ * _)).
        f_equiv. rewrite A. unfold dv. transitivity (qn D * qn b' * (ten (d - 17) * ten (17 - d)) - fval m e * ten (17 - d) * qn b')%Q; [ring|]. rewrite TT. ring.
      - eapply Qle_trans; [exact Near|]. apply Qle_lteq. right. transitivity (qn b' * (ten (d - 17) * ten (17 - d)))%Q; [rewrite TT; ring|ring]. }
    assert (S16 : (ten (d - 17) * ten 16 == ten (d - 1))%Q) by (rewrite <- ten_add; f_equiv; lia).
    change (ten 16) with (10000000000000000 # 1) in S16.
    assert (D0 : D <> 0).
    { intros ->. change (dv 0 (d - 17)) with (0 * ten (d - 17))%Q in Nq. assert (fval m e - 0 * ten (d - 17) == fval m e)%Q as E0 by ring. rewrite E0 in Nq.
      rewrite Qabs_pos in Nq; lra. }
    assert (U : (qn m <= 9007199254740991)%Q) by (change 9007199254740991%Q with (qn 9007199254740991); apply qn_le; unfold double in H; change (2 ^ 53) with 9007199254740992 in H; change (2 ^ 52) with 4503599627370496 in H; lia).
    unfold fval in L1. assert (X : (qn m * two e <= 9007199254740991 * two e)%Q) by (apply Qmult_le_compat_r; lra).
    apply close_reads_back; [exact H|exact D0| |].
    - lra.
    - intros ->. change (qn (2 ^ 52)) with 4503599627370496%Q in L1. lra. }
  apply orb_true_iff. destruct (N.le_gt_cases (2 * r) b') as [C|C].
  - left. apply KEY. assert (qn lo * qn b' - qn a' == - qn r)%Q as -> by (rewrite G; ring). rewrite Qabs_opp, Qabs_pos by apply qn_nonneg.
    apply qn_le in C. rewrite qn_mul in C. change (qn 2) with 2%Q in C. lra.
  - right. apply KEY. assert (qn (lo + 1) * qn b' - qn a' == qn b' - qn r)%Q as -> by (rewrite G, qn_add; change (qn 1) with 1%Q; ring).
    apply qn_lt in ML. rewrite Qabs_pos by lra. apply qn_lt in C. rewrite qn_mul in C. change (qn 2) with 2%Q in C. lra.
Qed.

(** ** The text *)
Lemma strip_zeros_rev_spec s : exists j, s = repeat 48 j ++ strip_zeros_rev s.
Proof.
  induction s as [|c s [j E]]; [exists O; reflexivity|]. destruct (N.eq_dec c 48) as [->|H].
  - exists (S j). cbn [strip_zeros_rev repeat app]. f_equal. exact E.
  - exists O. cbn [repeat app]. destruct c as [|p]; [reflexivity|]. do 6 (destruct p; try reflexivity). congruence.
Qed.
Lemma rev_repeat {X} (x : X) n : rev (repeat x n) = repeat x n.
Proof. induction n as [|n IH]; [reflexivity|]. cbn [repeat rev]. rewrite IH. symmetry. apply repeat_cons. Qed.
Lemma strip_zeros_spec s : exists j, s = strip_zeros s ++ zeros j.
Proof.
  unfold strip_zeros, zeros. destruct (strip_zeros_rev_spec (rev s)) as [j E]. exists j. rewrite <- (rev_involutive s) at 1. rewrite E at 1.
  rewrite rev_app_distr, rev_repeat. reflexivity.
Qed.
Lemma zeros_digits j : Forall ascii_digit (zeros j).
Proof. apply Forall_forall. intros c H. apply repeat_spec in H. subst. unfold ascii_digit. lia. Qed.
Lemma zeros_value j : dec_value (zeros j) = 0.
Proof. induction j as [|j IH]; [reflexivity|]. change (zeros (S j)) with (48 :: zeros j). rewrite dec_value_cons, IH. lia. Qed.
Lemma zeros_length j : length (zeros j) = j.
Proof. apply repeat_length. Qed.
Lemma value_zeros s j : dec_value (s ++ zeros j) = dec_value s * 10 ^ N.of_nat j.
Proof. rewrite dec_value_app, zeros_value, zeros_length. lia. Qed.
Lemma zeros_value' j s : dec_value (zeros j ++ s) = dec_value s.
Proof. rewrite dec_value_app, zeros_value. lia. Qed.

Definition stops (r : pystr) : Prop := match r with [] => True | c :: _ => is_ascii_digit c = false end.
Lemma not_word c ds r : ascii_digit c -> str_eqb (lower (c :: ds ++ r)) (u "inf") = false /\ str_eqb (lower (c :: ds ++ r)) (u "infinity") = false /\ str_eqb (lower (c :: ds ++ r)) (u "nan") = false.
Proof.
  intro Hc. pose proof (lower_digit c Hc) as Hl. assert (c <> 105 /\ c <> 110) as [N1 N2] by (unfold ascii_digit in Hc; lia).
  change (u "inf") with (105 :: u "nf"). change (u "infinity") with (105 :: u "nfinity"). change (u "nan") with (110 :: u "an").
  rewrite !lower_not by assumption. repeat split.
Qed.
Lemma parse_dotted neg ds fs r ex : Forall ascii_digit ds -> ds <> [] -> Forall ascii_digit fs -> stops r -> parse_exponent r = Some ex ->
  parse_unsigned neg (ds ++ 46 :: fs ++ r) = Some (float_of_dec neg (dec_value (ds ++ fs)) (ex - Z.of_nat (length fs))).
Proof.
  intros F N G S X. destruct ds as [|c ds]; [congruence|]. inversion F as [|? ? Hc F']; subst. unfold parse_unsigned.
  destruct (not_word c ds (46 :: fs ++ r) Hc) as (E1 & E2 & E3). cbn [app] in *. rewrite E1, E2, E3. cbn [orb].
  rewrite (span_digits_app (c :: ds) (46 :: fs ++ r) F eq_refl : span_digits (c :: ds ++ 46 :: fs ++ r) = _).
  rewrite (span_digits_app fs r G S). cbn [app]. rewrite X, ascii_int_dec. reflexivity.
Qed.
Lemma parse_undotted neg ds r ex : Forall ascii_digit ds -> ds <> [] -> stops r -> match r with 46 :: _ => False | _ => True end -> parse_exponent r = Some ex ->
  parse_unsigned neg (ds ++ r) = Some (float_of_dec neg (dec_value ds) ex).
Proof.
  intros F N S P X. destruct ds as [|c ds]; [congruence|]. inversion F as [|? ? Hc F']; subst. unfold parse_unsigned.
  destruct (not_word c ds r Hc) as (E1 & E2 & E3). cbn [app] in *. rewrite E1, E2, E3. cbn [orb].
  rewrite (span_digits_app (c :: ds) r F S : span_digits (c :: ds ++ r) = _).
  assert (R : match r with 46 :: t => span_digits t | _ => ([], r) end = ([], r)).
  { destruct r as [|x r]; [reflexivity|]. destruct x as [|p]; [reflexivity|]. do 6 (destruct p; try reflexivity). destruct P. }
  rewrite R. rewrite app_nil_r, X, ascii_int_dec. cbn [length]. change (Z.of_nat 0) with 0%Z. rewrite Z.sub_0_r. reflexivity.
Qed.
Lemma pad2_spec n : Forall ascii_digit (pad2 n) /\ pad2 n <> [] /\ dec_value (pad2 n) = n.
Proof.
  unfold pad2. destruct (dec_N_spec n) as (F & V & Ne & _). destruct (n <? 10).
  - split; [constructor; [unfold ascii_digit; lia|exact F]|]. split; [discriminate|]. rewrite dec_value_cons, V. lia.
  - repeat split; assumption.
Qed.
Lemma exponent_read x : parse_exponent (exp_suffix x) = Some x /\ stops (exp_suffix x) /\ match exp_suffix x with 46 :: _ => False | _ => True end.
Proof.
  split; [|split; [reflexivity|exact I]]. unfold exp_suffix, parse_exponent. cbn [N.eqb orb]. change (101 =? 101) with true. cbn [orb].
  destruct (pad2_spec (Z.abs_N x)) as (F & Ne & V). set (p := pad2 (Z.abs_N x)) in *. clearbody p.
  pose proof (span_digits_app p [] F I) as S. rewrite app_nil_r in S.
  destruct (Z.ltb_spec x 0) as [H|H]; rewrite S; (destruct p as [|c p]; [congruence|]); rewrite ascii_int_dec, V; rewrite N2Z.inj_abs_N; [replace (- Z.abs x)%Z with x by lia|replace (Z.abs x) with x by lia]; reflexivity.
Qed.
Lemma exp_plain x : forallb num_cp (exp_suffix x) = true.
Proof.
  unfold exp_suffix. cbn [forallb]. change (num_cp 101) with true. destruct (pad2_spec (Z.abs_N x)) as (F & _). rewrite (plain_num_digits _ (plain_digits _ F)).
  destruct (x <? 0)%Z; reflexivity.
Qed.
Lemma signed_read neg c s : ascii_digit c -> forallb num_cp (c :: s) = true -> py_float ((if neg : bool then [45] else []) ++ c :: s) = parse_unsigned neg (c :: s).
Proof.
  intros H F. destruct neg; cbn [app].
  - rewrite py_float_plain; [reflexivity|]. cbn [forallb] in *. change (num_cp 45) with true. exact F.
  - rewrite py_float_plain by exact F. apply read_signed_digit, H.
Qed.
(** ** Reading what repr wrote *)
Lemma digits_plain ds : Forall ascii_digit ds -> forallb num_cp ds = true.
Proof. intro F. apply plain_num_digits, plain_digits, F. Qed.
Lemma dv_shift D j t : (dv (D * 10 ^ j) t == dv D (Z.of_N j + t))%Q.
Proof. unfold dv. rewrite qn_mul, ten_nat, ten_add. ring. Qed.
Lemma dec_N_first D : D <> 0 -> exists c s, dec_N D = c :: s /\ c <> 48.
Proof.
  intro H. destruct (dec_N_spec D) as (F & V & Ne & Z). destruct (dec_N D) as [|c s]; [congruence|]. exists c, s. split; [reflexivity|].
  intros ->. destruct (Z eq_refl). contradiction.
Qed.
Theorem repr_read neg m e : double m e -> py_float ((if neg : bool then [45] else []) ++ repr_fin m e) = Some (FFin neg m e).
Proof.
  intro H. unfold repr_fin. destruct (N.eqb_spec m 0) as [G|_]; [unfold double in H; lia|].
  destruct (ratio_of m e) as [a b] eqn:R. set (d0 := decpt_of a b).
  destruct (shortest_finds 18 m e a b d0 17 1 (seventeen m e a b H R)) as (D & j & -> & _ & RB); [lia|]. set (t := (d0 - j)%Z) in *. clearbody t. clear d0 j R a b.
  destruct (reads_back D t m e H RB) as [D0 Rd]. destruct (strip_zeros_spec (dec_N D)) as [z Ez]. destruct (dec_N_spec D) as (F & V & _).
  destruct (dec_N_first D D0) as (c & s & Ec & C48). set (full := dec_N D) in *. set (ds := strip_zeros full) in *. clearbody full ds.
  assert (Nd : exists s', ds = c :: s').
  { destruct ds as [|c' s']; [|exists s'; rewrite Ec in Ez; cbn in Ez; congruence]. exfalso. cbn [app] in Ez. rewrite Ec in Ez. destruct z; [discriminate|]. cbn in Ez. congruence. }
  assert (Fd : Forall ascii_digit ds) by (rewrite Ez in F; apply Forall_app in F; apply F).
  assert (Vd : D = dec_value ds * 10 ^ N.of_nat z) by (rewrite <- V, Ez; apply value_zeros).
  assert (Dv : forall t', t' = (Z.of_nat z + t)%Z -> forall k, float_of_dec neg (dec_value ds * 10 ^ N.of_nat k) (t' - Z.of_nat k) = FFin neg m e).
  { intros t' -> k. rewrite <- (Rd neg). symmetry. apply float_of_dec_ext; [exact D0|]. rewrite Vd, !dv_shift. unfold dv. f_equiv. f_equiv. lia. }
  assert (Le : Z.of_nat (length full) = (Z.of_nat (length ds) + Z.of_nat z)%Z) by (rewrite Ez, app_length, zeros_length; lia).
  rewrite Le. set (p := (Z.of_nat (length ds) + Z.of_nat z + t)%Z). clear Ez Ec V F Le full Rd RB.
  destruct Nd as [s' ->]. inversion Fd as [|? ? Hc Fs]; subst.
  destruct ((p <=? -4)%Z || (16 <? p)%Z).
  - destruct (exponent_read (p - 1)) as (X1 & X2 & X3). rewrite signed_read; [|exact Hc|].
    2:{ cbn [forallb]. rewrite forallb_app, exp_plain. pose proof (digits_plain [c] (Forall_cons c Hc (Forall_nil _))) as Q. cbn [forallb] in Q. rewrite andb_true_r in Q. rewrite Q.
        destruct s' as [|x s']; [reflexivity|]. cbn [forallb]. pose proof (digits_plain _ Fs) as Q'. cbn [forallb] in Q'. rewrite Q'. reflexivity. }
    destruct s' as [|x s'].
    + cbn [app]. rewrite (parse_undotted neg [c] (exp_suffix (p - 1)) (p - 1) Fd ltac:(discriminate) X2 X3 X1 : parse_unsigned neg (c :: exp_suffix (p - 1)) = _).
      f_equal. specialize (Dv (p - 1)%Z). rewrite <- (Dv ltac:(unfold p; cbn [length]; lia) O). cbn [N.of_nat]. rewrite N.pow_0_r, N.mul_1_r. f_equal. lia.
    + change (c :: (46 :: x :: s') ++ exp_suffix (p - 1)) with ([c] ++ 46 :: (x :: s') ++ exp_suffix (p - 1)).
      rewrite (parse_dotted neg [c] (x :: s') _ (p - 1)); [|exact (Forall_cons c Hc (Forall_nil _))|discriminate|exact Fs|exact X2|exact X1].
      f_equal. cbn [app]. rewrite <- (Dv (p - 1 - Z.of_nat (length (x :: s')))%Z ltac:(unfold p; cbn [length]; lia) O). cbn [N.of_nat]. rewrite N.pow_0_r, N.mul_1_r. f_equal. lia.
  - destruct (Z.leb_spec p 0) as [P0|P0].
    + change (u "0.") with [48; 46]. cbn [app].
      assert (Fz : Forall ascii_digit (zeros (Z.to_nat (- p)) ++ c :: s')) by (apply Forall_app; split; [apply zeros_digits|exact Fd]).
      rewrite (signed_read neg 48); [|unfold ascii_digit; lia|cbn [forallb]; rewrite (digits_plain _ Fz); reflexivity].
      pose proof (parse_dotted neg [48] (zeros (Z.to_nat (- p)) ++ c :: s') [] 0 (zeros_digits 1) ltac:(discriminate) Fz I eq_refl) as Q.
      rewrite app_nil_r in Q. cbn [app] in Q. rewrite Q. f_equal. rewrite dec_value_cons, zeros_value', app_length, zeros_length.
      rewrite <- (Dv (0 - Z.of_nat (Z.to_nat (- p) + length (c :: s')))%Z ltac:(unfold p in *; lia) O). cbn [N.of_nat]. rewrite N.pow_0_r, N.mul_1_r. f_equal; lia.
    + destruct (Z.leb_spec (Z.of_nat (length (c :: s'))) p) as [Pk|Pk].
      * set (k := Z.to_nat (p - Z.of_nat (length (c :: s')))).
        assert (Fz : Forall ascii_digit ((c :: s') ++ zeros k)) by (apply Forall_app; split; [exact Fd|apply zeros_digits]).
        change (u ".0") with (46 :: [48]). rewrite (app_assoc (c :: s')). cbn [app] in *.
        rewrite signed_read; [|exact Hc|change (c :: (s' ++ zeros k) ++ [46; 48]) with ((c :: s' ++ zeros k) ++ [46; 48]); rewrite forallb_app, (digits_plain _ Fz); reflexivity].
        pose proof (parse_dotted neg (c :: s' ++ zeros k) [48] [] 0 Fz ltac:(discriminate) (zeros_digits 1) I eq_refl) as Q. cbn [app] in Q. rewrite Q. f_equal.
        assert (V1 : c :: (s' ++ zeros k) ++ [48] = (c :: s') ++ zeros (k + 1)) by (cbn [app]; rewrite <- app_assoc; do 2 f_equal; symmetry; apply (repeat_app 48 k 1)).
        rewrite V1, value_zeros. rewrite <- (Dv (Z.of_nat k)%Z ltac:(unfold p, k in *; lia) (k + 1)%nat). f_equal. cbn [length]. lia.
      * remember (Z.to_nat p) as k eqn:Hk. assert (E : c :: s' = firstn k (c :: s') ++ skipn k (c :: s')) by (symmetry; apply firstn_skipn).
        assert (Lk : (0 < k < length (c :: s'))%nat) by lia. destruct k as [|k]; [lia|]. cbn [firstn skipn app] in *.
        injection E as E. assert (Ff : Forall ascii_digit (firstn k s') /\ Forall ascii_digit (skipn k s')) by (apply Forall_app; rewrite <- E; exact Fs). destruct Ff as [F1 F2].
        rewrite signed_read; [|exact Hc|change (c :: firstn k s' ++ 46 :: skipn k s') with ((c :: firstn k s') ++ [46] ++ skipn k s'); rewrite !forallb_app, (digits_plain _ F2), (digits_plain (c :: firstn k s') ltac:(constructor; assumption)); reflexivity].
        pose proof (parse_dotted neg (c :: firstn k s') (skipn k s') [] 0 ltac:(constructor; assumption) ltac:(discriminate) F2 I eq_refl) as Q. rewrite app_nil_r in Q. cbn [app] in Q. rewrite Q, <- E. f_equal.
        rewrite <- (Dv (0 - Z.of_nat (length (skipn k s')))%Z ltac:(rewrite skipn_length; unfold p in *; cbn [length] in *; lia) O). cbn [N.of_nat]. rewrite N.pow_0_r, N.mul_1_r. f_equal. lia.
Qed.
