(** Printing a float and reading it back: seventeen digits suffice. *)
From Coq Require Import String List NArith ZArith QArith Qabs Qpower Bool Lia Lqa Arith.
From Verif Require Import PyStr PyStrTheory Float64 NumTheory FloatTheory FloatError.
Import ListNotations.
Local Open Scope N_scope.

(** ** Specification: the binary64 numbers other than zero *)
Definition double (m : N) (e : Z) : Prop :=
  (2 ^ 52 <= m < 2 ^ 53 /\ (-1074 <= e <= 971)%Z) \/ (0 < m < 2 ^ 52 /\ e = (-1074)%Z).

(** ** Powers *)
Lemma two_lt a b : (a < b)%Z -> (two a < two b)%Q.
Proof.
  intro H. assert (two b == two a * two (b - a))%Q as -> by (rewrite <- two_add; f_equiv; lia).
  assert (2 <= two (b - a))%Q. { change 2%Q with (two 1). apply two_le. lia. } pose proof (two_pos a). nra.
Qed.
Lemma two_lt_inv a b : (two a < two b)%Q -> (a < b)%Z.
Proof. intro H. destruct (Z_lt_le_dec a b) as [L|L]; [exact L|]. apply two_le in L. lra. Qed.
Lemma qn_sub_lt a b : (qn a < qn b + 1)%Q -> a <= b.
Proof. intro H. unfold qn, Qlt in H. cbn in H. lia. Qed.

(** ** The exponent *)
Section E.
Variables num den : N.
Hypothesis D : den <> 0.
Hypothesis Nz : num <> 0.
Let x : Q := (qn num / qn den)%Q.
Lemma exponent_high : (x < two (exponent num den + 53))%Q.
Proof.
  unfold exponent. set (e0 := (Z.of_N (N.log2 num) - Z.of_N (N.log2 den) - 52)%Z).
  destruct (scale2 num den e0) as [a0 b0] eqn:S0. destruct (scaled num den D _ _ _ S0) as [B E]. fold x in E.
  pose proof (qn_pos b0 B) as PB. pose proof (two_pos e0) as P0.
  destruct (N.ltb_spec (a0 / b0) (2 ^ 52)) as [L|L].
  - assert (H : (qn a0 < two 52 * qn b0)%Q).
    { destruct (Qlt_le_dec (qn a0) (two 52 * qn b0)) as [G|G]; [exact G|]. exfalso. rewrite <- (two_nat 52) in G. apply div_ge in G; [lia|exact B]. }
    apply (Qmult_lt_r _ _ (qn b0)); [exact PB|]. rewrite <- E. replace (e0 - 1 + 53)%Z with (52 + e0)%Z by lia. rewrite two_add.
    apply (Qmult_lt_r _ _ (two e0)) in H; [|exact P0]. eapply Qlt_le_trans; [exact H|]. apply Qle_lteq. right. ring.
  - destruct (log2_q num Nz) as [_ L1]. destruct (log2_q den D) as [L2 _].
    apply (Qmult_lt_r _ _ (qn den)); [apply qn_pos, D|]. pose proof (x_den num den D) as XD. fold x in XD. rewrite XD. eapply Qlt_le_trans; [exact L1|].
    assert (2 * two (Z.of_N (N.log2 num)) == two (e0 + 53) * two (Z.of_N (N.log2 den)))%Q as ->.
    { change 2%Q with (two 1) at 1. rewrite <- !two_add. f_equiv. unfold e0. lia. }
    apply times_mono; [apply Qlt_le_weak, two_pos|exact L2].
Qed.
Lemma exponent_is k : (two (k + 52) <= x)%Q -> (x < two (k + 53))%Q -> exponent num den = k.
Proof.
  intros H1 H2. pose proof (exponent_low num den D Nz) as L. fold x in L. pose proof exponent_high as U.
  assert (two (k + 52) < two (exponent num den + 53))%Q as A by lra. assert (two (exponent num den + 52) < two (k + 53))%Q as B by lra.
  apply two_lt_inv in A. apply two_lt_inv in B. lia.
Qed.
Definition finish (e : Z) : option (N * Z) :=
  let (a, b) := scale2 num den e in
  let m := round_half_even a b in
  let '(m, e) := if m =? 2 ^ 53 then (2 ^ 52, (e + 1)%Z) else (m, e) in
  if (971 <? e)%Z then None else Some (m, e).
Lemma round_finish : round_ratio num den = finish (Z.max (exponent num den) (-1074)).
Proof.
  unfold round_ratio, exponent, finish. destruct (N.eqb_spec num 0) as [G|_]; [contradiction|].
  destruct (scale2 num den (Z.of_N (N.log2 num) - Z.of_N (N.log2 den) - 52)) as [a0 b0]. reflexivity.
Qed.
Lemma round_unique a b m : b <> 0 -> (Qabs (qn m * qn b - qn a) * 2 < qn b)%Q -> round_half_even a b = m.
Proof.
  intros B H. pose proof (round_near a b B) as R. set (r := round_half_even a b) in *. clearbody r. pose proof (qn_pos b B) as PB.
  apply qn_sub_abs. apply (Qmult_lt_r _ _ (qn b)); [exact PB|]. rewrite abs_scale by exact PB.
  assert ((qn r - qn m) * qn b == (qn r * qn b - qn a) - (qn m * qn b - qn a))%Q as -> by ring.
  eapply Qle_lt_trans; [apply Qabs_triangle|]. rewrite Qabs_opp. lra.
Qed.
Lemma mantissa_is e a b m : scale2 num den e = (a, b) -> (Qabs (fval m e - x) * 2 < two e)%Q -> round_half_even a b = m.
Proof.
  intros S H. destruct (scaled num den D e a b S) as [B E]. fold x in E. apply round_unique; [exact B|].
  pose proof (qn_pos b B) as PB. pose proof (two_pos e) as PE. apply (Qmult_lt_r _ _ (two e)); [exact PE|].
  apply (Qmult_lt_r _ _ (qn b)) in H; [|exact PB].
  assert (Qabs (qn m * qn b - qn a) * 2 * two e == Qabs (fval m e - x) * 2 * qn b)%Q as ->; [|eapply Qlt_le_trans; [exact H|]; apply Qle_lteq; right; ring].
  transitivity (Qabs (qn m * qn b - qn a) * two e * 2)%Q; [ring|]. transitivity (Qabs (fval m e - x) * qn b * 2)%Q; [|ring].
  rewrite (abs_scale (fval m e - x)), (abs_scale (qn m * qn b - qn a)) by assumption.
  assert ((fval m e - x) * qn b == (qn m * qn b - qn a) * two e)%Q as ->; [|reflexivity].
  unfold fval. transitivity (qn m * qn b * two e - qn a * two e)%Q; [rewrite E; ring|ring].
Qed.
Lemma finish_is m e : (Qabs (fval m e - x) * 2 < two e)%Q -> m <> 2 ^ 53 -> (e <= 971)%Z -> finish e = Some (m, e).
Proof.
  intros H M L. unfold finish. destruct (scale2 num den e) as [a b] eqn:S. rewrite (mantissa_is e a b m S H).
  destruct (N.eqb_spec m (2 ^ 53)) as [G|_]; [contradiction|]. destruct (Z.ltb_spec 971 e) as [G|_]; [lia|]. reflexivity.
Qed.
Lemma finish_next e : (Qabs (fval (2 ^ 52) e - x) * 4 < two e)%Q -> (e <= 971)%Z -> finish (e - 1) = Some (2 ^ 52, e).
Proof.
  intros H L. unfold finish. destruct (scale2 num den (e - 1)) as [a b] eqn:S. rewrite (mantissa_is (e - 1) a b (2 ^ 53) S).
  - destruct (N.eqb_spec (2 ^ 53) (2 ^ 53)) as [_|G]; [|congruence]. rewrite Z.sub_add. destruct (Z.ltb_spec 971 e) as [G|_]; [lia|]. reflexivity.
  - assert (two e == 2 * two (e - 1))%Q as E. { change 2%Q with (two 1). rewrite <- two_add. f_equiv. lia. }
    rewrite E in H. assert (fval (2 ^ 53) (e - 1) == fval (2 ^ 52) e)%Q as ->; [|lra].
    unfold fval. rewrite E. change (2 ^ 53) with (2 ^ 52 * 2). rewrite qn_mul. change (qn 2) with 2%Q. ring.
Qed.
(** A number is read as the nearest double *)
Theorem round_back m e : double m e -> (Qabs (fval m e - x) * 2 < two e)%Q -> (m = 2 ^ 52 -> (Qabs (fval m e - x) * 4 < two e)%Q) -> round_ratio num den = Some (m, e).
Proof.
  intros Dm H Q4. rewrite round_finish. pose proof (two_pos e) as PE.
  assert (H' : (fval m e - x <= Qabs (fval m e - x) /\ - (fval m e - x) <= Qabs (fval m e - x))%Q) by (apply abs_le; lra). destruct H' as [H1 H2].
  assert (T52 : (two (e + 52) == qn (2 ^ 52) * two e)%Q) by (rewrite Z.add_comm, two_add, (two_nat 52); reflexivity).
  assert (T53 : (two (e + 53) == qn (2 ^ 53) * two e)%Q) by (rewrite Z.add_comm, two_add, (two_nat 53); reflexivity).
  assert (UP : forall b, m < b -> (x < qn b * two e)%Q).
  { intros b L. assert (M : (qn m + 1 <= qn b)%Q) by (change 1%Q with (qn 1); rewrite <- qn_add; apply qn_le; lia).
    unfold fval in *. assert (qn m * two e + two e <= qn b * two e)%Q by (assert (qn m * two e + two e == (qn m + 1) * two e)%Q as -> by ring; apply Qmult_le_compat_r; lra). lra. }
  destruct Dm as [[[M1 M2] [E1 E2]]|[[M1 M2] ->]].
  - destruct (Qlt_le_dec x (two (e + 52))) as [L|L].
    + assert (m = 2 ^ 52) as ->.
      { destruct (N.eq_dec m (2 ^ 52)) as [G|G]; [exact G|exfalso]. assert (M : (qn (2 ^ 52) + 1 <= qn m)%Q) by (change 1%Q with (qn 1); rewrite <- qn_add; apply qn_le; lia).
        rewrite T52 in L. unfold fval in *.
        assert (qn (2 ^ 52) * two e + two e <= qn m * two e)%Q by (assert (qn (2 ^ 52) * two e + two e == (qn (2 ^ 52) + 1) * two e)%Q as -> by ring; apply Qmult_le_compat_r; lra). lra. }
      specialize (Q4 eq_refl). destruct (Z.eq_dec e (-1074)) as [->|Ne].
      * pose proof (exponent_low num den D Nz) as EL. fold x in EL. assert (two (exponent num den + 52) < two (-1074 + 52))%Q as B by lra. apply two_lt_inv in B.
        rewrite Z.max_r by lia. apply finish_is; [exact H|discriminate|lia].
      * assert (X : exponent num den = (e - 1)%Z).
        { apply exponent_is; [|replace (e - 1 + 53)%Z with (e + 52)%Z by lia; exact L]. replace (e - 1 + 52)%Z with (e + 51)%Z by lia.
          assert (T51 : (two (e + 51) * 2 == two (e + 52))%Q). { change 2%Q with (two 1). rewrite <- two_add. f_equiv. lia. }
          assert (B51 : (two e <= two (e + 51))%Q) by (apply two_le; lia). unfold fval in *. rewrite T52 in T51. lra. }
        rewrite X, Z.max_l by lia. apply finish_next; [exact Q4|lia].
    + assert (X : exponent num den = e) by (apply exponent_is; [exact L|rewrite T53; apply UP, M2]).
      rewrite X, Z.max_l by lia. apply finish_is; [exact H|lia|lia].
  - pose proof (exponent_low num den D Nz) as EL. fold x in EL. pose proof (UP _ M2) as U. rewrite <- T52 in U.
    assert (two (exponent num den + 52) < two (-1074 + 52))%Q as B by lra. apply two_lt_inv in B.
    rewrite Z.max_r by lia. apply finish_is; [exact H|lia|lia].
Qed.
(** Every result of rounding is a double or zero *)
Lemma round_double m e : round_ratio num den = Some (m, e) -> (m = 0 /\ e = (-1074)%Z) \/ double m e.
Proof.
  rewrite round_finish. set (k := Z.max (exponent num den) (-1074)). unfold finish. destruct (scale2 num den k) as [a b] eqn:S.
  destruct (scaled num den D k a b S) as [B E]. fold x in E. pose proof (round_near a b B) as R. set (r := round_half_even a b) in *. clearbody r.
  pose proof (qn_pos b B) as PB. pose proof (two_pos k) as PK.
  assert (R1 : (Qabs (qn r * qn b - qn a) <= qn b * (1 # 2))%Q) by lra. apply abs_le in R1. destruct R1 as [R1 R2]. clear R.
  pose proof (exponent_low num den D Nz) as EL. pose proof exponent_high as EH. fold x in EL.
  assert (T : forall j, (two (k + Z.of_N j) == qn (2 ^ j) * two k)%Q) by (intro j; rewrite Z.add_comm, two_add, two_nat; reflexivity).
  assert (UB : (x < two (k + 53))%Q) by (eapply Qlt_le_trans; [exact EH|]; apply two_le; lia).
  assert (RU : r <= 2 ^ 53).
  { apply qn_sub_lt. apply (Qmult_lt_r _ _ (qn b)); [exact PB|]. rewrite (T 53) in UB.
    assert (qn a < qn (2 ^ 53) * qn b)%Q.
    { apply (Qmult_lt_r _ _ (two k)); [exact PK|]. rewrite E. apply (Qmult_lt_r _ _ (qn b)) in UB; [|exact PB]. eapply Qlt_le_trans; [exact UB|]. apply Qle_lteq. right. ring. }
    lra. }
  destruct (Z_le_gt_dec (-1074) (exponent num den)) as [G|G].
  - assert (KE : k = exponent num den) by (unfold k; lia).
    assert (RL : 2 ^ 52 <= r).
    { apply qn_sub_lt. apply (Qmult_lt_r _ _ (qn b)); [exact PB|]. rewrite <- KE, (T 52) in EL.
      assert (qn (2 ^ 52) * qn b <= qn a)%Q.
      { apply (Qmult_le_r _ _ (two k)); [exact PK|]. rewrite E. apply (Qmult_le_r _ _ (qn b)) in EL; [|exact PB]. eapply Qle_trans; [|exact EL]. apply Qle_lteq. right. ring. }
      lra. }
    destruct (N.eqb_spec r (2 ^ 53)) as [R53|R53].
    + destruct (Z.ltb_spec 971 (k + 1)) as [|L]; [discriminate|]. intros [= <- <-]. right. left. split; [split; [lia|reflexivity]|lia].
    + destruct (Z.ltb_spec 971 k) as [|L]; [discriminate|]. intros [= <- <-]. right. left. lia.
  - assert (KE : k = (-1074)%Z) by (unfold k; lia).
    assert (R52 : r <= 2 ^ 52).
    { apply qn_sub_lt. apply (Qmult_lt_r _ _ (qn b)); [exact PB|].
      assert (UB' : (x < two (k + 52))%Q) by (eapply Qlt_le_trans; [exact EH|]; apply two_le; lia). rewrite (T 52) in UB'.
      assert (qn a < qn (2 ^ 52) * qn b)%Q.
      { apply (Qmult_lt_r _ _ (two k)); [exact PK|]. rewrite E. apply (Qmult_lt_r _ _ (qn b)) in UB'; [|exact PB]. eapply Qlt_le_trans; [exact UB'|]. apply Qle_lteq. right. ring. }
      lra. }
    destruct (N.eqb_spec r (2 ^ 53)) as [R53|R53]; [rewrite R53 in R52; vm_compute in R52; congruence|].
    destruct (Z.ltb_spec 971 k) as [|L]; [discriminate|]. intros [= <- <-]. destruct (N.eq_dec r 0) as [->|R0]; [left; split; [reflexivity|exact KE]|].
    right. destruct (N.eq_dec r (2 ^ 52)) as [->|R1']; [left; split; [split; [lia|reflexivity]|lia]|]. right. split; [lia|exact KE].
Qed.
End E.

(** A double is one pair of mantissa and exponent *)
Lemma double_unique m e m' e' : double m e -> double m' e' -> fin_eqb m' e' m e = true -> m' = m /\ e' = e.
Proof.
  intros H H' E. unfold fin_eqb in E. apply N.eqb_eq in E.
  assert (G : forall m e m' e', double m e -> double m' e' -> (e' < e)%Z -> m' * 2 ^ Z.to_N (e' - Z.min e' e) = m * 2 ^ Z.to_N (e - Z.min e' e) -> False).
  { clear. intros m e m' e' H H' L E. rewrite Z.min_l in E by lia. rewrite Z.sub_diag in E. change (2 ^ Z.to_N 0) with 1 in E. rewrite N.mul_1_r in E.
    assert (m' < 2 ^ 53) by (unfold double in H'; lia). assert (2 ^ 52 <= m) by (unfold double in H, H'; lia).
    assert (P : 2 <= 2 ^ Z.to_N (e - e')) by (change 2 with (2 ^ 1) at 1; apply N.pow_le_mono_r; lia).
    set (p := 2 ^ Z.to_N (e - e')) in *. clearbody p. change (2 ^ 53) with (2 ^ 52 * 2) in *. set (q := 2 ^ 52) in *. clearbody q. nia. }
  destruct (Z.lt_total e' e) as [L|[L|L]].
  - exfalso. exact (G m e m' e' H H' L E).
  - subst. rewrite Z.min_id, Z.sub_diag in E. change (2 ^ Z.to_N 0) with 1 in E. lia.
  - exfalso. apply (G m' e' m e H' H L). rewrite Z.min_comm. symmetry. exact E.
Qed.
(** Rounding only looks at the value *)
Lemma half_even_scale a b c : b <> 0 -> c <> 0 -> round_half_even (a * c) (b * c) = round_half_even a b.
Proof.
  intros B C. unfold round_half_even. rewrite N.div_mul_cancel_r, N.mul_mod_distr_r by assumption.
  rewrite N.mul_assoc. assert (M : forall x y, (x * c ?= y * c) = (x ?= y)).
  { clear - C. intros x y. destruct (N.compare_spec x y) as [->|L|L]; [apply N.compare_refl|apply N.compare_lt_iff; nia|apply N.compare_gt_iff; nia]. }
  rewrite M. reflexivity.
Qed.
Lemma half_even_ext a b a' b' : b <> 0 -> b' <> 0 -> a * b' = a' * b -> round_half_even a b = round_half_even a' b'.
Proof. intros B B' E. rewrite <- (half_even_scale a b b'), <- (half_even_scale a' b' b) by assumption. rewrite E, (N.mul_comm b b'). reflexivity. Qed.
Lemma round_ext num den num' den' : den <> 0 -> den' <> 0 -> num * den' = num' * den -> round_ratio num den = round_ratio num' den'.
Proof.
  intros D D' E. destruct (N.eq_dec num 0) as [->|Nz].
  { assert (num' = 0) as -> by lia. reflexivity. }
  assert (Nz' : num' <> 0) by (intros ->; destruct (N.mul_eq_0 num den'); lia).
  assert (X : (qn num / qn den == qn num' / qn den')%Q).
  { apply (f_equal qn) in E. assert (qn num * qn den' == qn num' * qn den)%Q as E' by (rewrite <- !qn_mul, E; reflexivity).
    pose proof (qn_pos den D). pose proof (qn_pos den' D'). apply (Qmult_inj_r _ _ (qn den * qn den')); [nra|].
    transitivity (qn num * qn den')%Q; [field; lra|]. rewrite E'. field. lra. }
  rewrite !round_finish by assumption.
  assert (Ex : exponent num den = exponent num' den').
  { apply exponent_is; [exact D|exact Nz| |]; rewrite X; [apply exponent_low|apply exponent_high]; assumption. }
  rewrite Ex. set (k := Z.max (exponent num' den') (-1074)). unfold finish.
  destruct (scale2 num den k) as [a b] eqn:S. destruct (scale2 num' den' k) as [a' b'] eqn:S'.
  destruct (scaled num den D _ _ _ S) as [B V]. destruct (scaled num' den' D' _ _ _ S') as [B' V'].
  rewrite (half_even_ext a b a' b'); [reflexivity|exact B|exact B'|].
  enough (G : (qn (a * b') == qn (a' * b))%Q). { unfold qn, Qeq in G. cbn in G. lia. }
  rewrite !qn_mul. pose proof (two_pos k). apply (Qmult_inj_r _ _ (two k)); [lra|].
  transitivity (qn a * two k * qn b')%Q; [ring|]. rewrite V, X. transitivity (qn a' * two k * qn b)%Q; [rewrite V'; ring|ring].
Qed.
