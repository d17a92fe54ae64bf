(** The rounding error of float(s) on decimal literals, and what the normalizer makes of them. *)
From Coq Require Import String List NArith ZArith QArith Qabs Qpower Bool Lia Lqa.
From Verif Require Import PyStr PyStrTheory Float64 NumTheory FloatTheory.
Import ListNotations.
Local Open Scope N_scope.

(** ** Fractions *)
Definition qn (n : N) : Q := inject_Z (Z.of_N n).
Definition two (e : Z) : Q := Qpower 2 e.
Definition fval (m : N) (e : Z) : Q := (qn m * two e)%Q.
Lemma qn_pos n : n <> 0 -> (0 < qn n)%Q.
Proof. intro H. unfold qn, Qlt. cbn. lia. Qed.
Lemma qn_nonneg n : (0 <= qn n)%Q.
Proof. unfold qn, Qle. cbn. lia. Qed.
Lemma qn_le a b : a <= b <-> (qn a <= qn b)%Q.
Proof. unfold qn, Qle. cbn. lia. Qed.
Lemma qn_lt a b : a < b <-> (qn a < qn b)%Q.
Proof. unfold qn, Qlt. cbn. lia. Qed.
Lemma qn_add a b : (qn (a + b) == qn a + qn b)%Q.
Proof. unfold qn. rewrite N2Z.inj_add, inject_Z_plus. reflexivity. Qed.
Lemma qn_mul a b : (qn (a * b) == qn a * qn b)%Q.
Proof. unfold qn. rewrite N2Z.inj_mul, inject_Z_mult. reflexivity. Qed.
Lemma two_pos e : (0 < two e)%Q.
Proof. apply Qpower_0_lt. reflexivity. Qed.
Lemma two_add a b : (two (a + b) == two a * two b)%Q.
Proof. apply Qpower_plus. discriminate. Qed.
Lemma two_nat n : (qn (2 ^ n) == two (Z.of_N n))%Q.
Proof.
  unfold qn, two. rewrite N2Z.inj_pow. change (Z.of_N 2) with 2%Z. rewrite Zpower_Qpower by lia. reflexivity.
Qed.
Lemma two_opp e : (two e * two (- e) == 1)%Q.
Proof. rewrite <- two_add, Z.add_opp_diag_r. reflexivity. Qed.
Lemma two_le a b : (a <= b)%Z -> (two a <= two b)%Q.
Proof. intro H. apply Qpower_le_compat_l; [exact H|discriminate]. Qed.

Lemma scale2_value num den e a b : den <> 0 -> scale2 num den e = (a, b) -> b <> 0 /\ (qn a * (qn den * two e) == qn num * qn b)%Q.
Proof.
  intros D. unfold scale2. destruct (Z.leb_spec 0 e) as [H|H]; intros [= <- <-].
  - split; [apply N.neq_mul_0; split; [exact D|apply pow2_pos]|]. rewrite qn_mul, two_nat, Z2N.id by exact H. ring.
  - split; [exact D|]. rewrite qn_mul, two_nat, Z2N.id by lia. transitivity (qn num * qn den * (two e * two (- e)))%Q; [ring|]. rewrite two_opp. ring.
Qed.
(** The nearest integer *)
Lemma round_near a b : b <> 0 -> (Qabs (qn (round_half_even a b) * qn b - qn a) * 2 <= qn b)%Q.
Proof.
  intro D. pose proof (N.div_mod a b D) as E. pose proof (N.mod_lt a b D) as L. set (q := a / b) in *. set (r := a mod b) in *.
  assert (G : (qn a == qn b * qn q + qn r)%Q) by (rewrite E at 1; rewrite qn_add, qn_mul; reflexivity).
  assert (R0 : (qn r <= qn b)%Q) by (apply qn_le; lia). pose proof (qn_nonneg r) as R1.
  assert (T : forall x y, (x <= y -> - x <= y -> Qabs x <= y)%Q) by (intros x y; apply Qabs_case; auto).
  assert (T2 : forall x, (x * 2 <= qn b -> - x * 2 <= qn b -> Qabs x * 2 <= qn b)%Q) by (intros x; apply Qabs_case; auto).
  unfold round_half_even. fold q r. destruct (N.compare_spec (2 * r) b) as [C|C|C].
  - assert (C' : (2 * qn r == qn b)%Q) by (rewrite <- C, qn_mul; reflexivity).
    destruct (is_even q); rewrite ?qn_add; change (qn 1) with 1%Q; apply T2; rewrite G; ring_simplify; lra.
  - assert (C' : (2 * qn r < qn b)%Q) by (apply qn_lt in C; rewrite qn_mul in C; exact C).
    apply T2; rewrite G; ring_simplify; lra.
  - assert (C' : (qn b < 2 * qn r)%Q) by (apply qn_lt in C; rewrite qn_mul in C; exact C).
    rewrite ?qn_add; change (qn 1) with 1%Q; apply T2; rewrite G; ring_simplify; lra.
Qed.
(** a/b is at least n *)
Lemma div_ge n a b : b <> 0 -> (n <= a / b <-> (qn n * qn b <= qn a)%Q).
Proof.
  intro D. rewrite <- qn_mul, <- qn_le. split; intro H.
  - pose proof (N.mul_div_le a b D). nia.
  - apply N.div_le_lower_bound; [exact D|lia].
Qed.

(** ** Rounding *)
Lemma abs_scale x y : (0 < y -> Qabs x * y == Qabs (x * y))%Q.
Proof. intro H. rewrite Qabs_Qmult, (Qabs_pos y) by (apply Qlt_le_weak, H). reflexivity. Qed.
Lemma times_le_r x y z : (0 < z -> (x <= y <-> x * z <= y * z))%Q.
Proof. intro H. symmetry. apply Qmult_le_r, H. Qed.
Lemma log2_q n : n <> 0 -> (two (Z.of_N (N.log2 n)) <= qn n)%Q /\ (qn n < 2 * two (Z.of_N (N.log2 n)))%Q.
Proof.
  intro H. destruct (N.log2_spec n ltac:(lia)) as [L1 L2]. rewrite <- two_nat. split; [apply qn_le, L1|].
  apply qn_lt in L2. rewrite N.pow_succ_r', qn_mul in L2. exact L2.
Qed.
Section R.
Variables num den : N.
Hypothesis D : den <> 0.
Let x : Q := (qn num / qn den)%Q.
Lemma x_den : (x * qn den == qn num)%Q.
Proof. unfold x. field. pose proof (qn_pos den D) as P. intro E. rewrite E in P. discriminate P. Qed.
Lemma scaled e a b : scale2 num den e = (a, b) -> b <> 0 /\ (qn a * two e == x * qn b)%Q.
Proof.
  intro H. destruct (scale2_value num den e a b D H) as [B E]. split; [exact B|].
  apply (Qmult_inj_r _ _ (qn den)); [pose proof (qn_pos den D) as P; intro Z; rewrite Z in P; discriminate P|].
  transitivity (qn num * qn b)%Q; [rewrite <- E; ring|]. rewrite <- x_den. ring.
Qed.
Lemma mantissa_error e a b : scale2 num den e = (a, b) -> (Qabs (fval (round_half_even a b) e - x) * 2 <= two e)%Q.
Proof.
  intro H. destruct (scaled e a b H) as [B E]. pose proof (round_near a b B) as R. set (m := round_half_even a b) in *. clearbody m.
  pose proof (qn_pos b B) as PB. pose proof (two_pos e) as PE. apply (proj2 (times_le_r _ _ (qn b) PB)).
  apply (proj1 (times_le_r _ _ (two e) PE)) in R.
  assert (Q1 : (Qabs (fval m e - x) * 2 * qn b == Qabs (qn m * qn b - qn a) * 2 * two e)%Q); [|rewrite Q1; lra].
  transitivity (Qabs (fval m e - x) * qn b * 2)%Q; [ring|]. transitivity (Qabs (qn m * qn b - qn a) * two e * 2)%Q; [|ring].
  rewrite (abs_scale (fval m e - x)), (abs_scale (qn m * qn b - qn a)) by assumption. assert ((fval m e - x) * qn b == (qn m * qn b - qn a) * two e)%Q as ->; [|reflexivity].
  unfold fval. transitivity (qn m * qn b * two e - qn a * two e)%Q; [rewrite E; ring|ring].
Qed.
(** the exponent chosen *)
Definition exponent : Z :=
  let e0 := (Z.of_N (N.log2 num) - Z.of_N (N.log2 den) - 52)%Z in
  let (a0, b0) := scale2 num den e0 in if a0 / b0 <? 2 ^ 52 then (e0 - 1)%Z else e0.
Lemma exponent_low : num <> 0 -> (two (exponent + 52) <= x)%Q.
Proof.
  intro H. unfold exponent. set (e0 := (Z.of_N (N.log2 num) - Z.of_N (N.log2 den) - 52)%Z).
  destruct (scale2 num den e0) as [a0 b0] eqn:S0. destruct (scaled _ _ _ S0) as [B E].
  destruct (N.ltb_spec (a0 / b0) (2 ^ 52)) as [L|L].
  - destruct (log2_q num H) as [L1 _]. destruct (log2_q den D) as [_ L2].
    apply (proj2 (times_le_r _ _ (qn den) (qn_pos den D))). rewrite x_den. eapply Qle_trans; [|exact L1].
    assert (two (Z.of_N (N.log2 num)) == two (e0 - 1 + 52) * (2 * two (Z.of_N (N.log2 den))))%Q as ->.
    { change 2%Q with (two 1) at 1. rewrite <- !two_add. f_equiv. unfold e0. lia. }
    apply Qmult_le_l; [apply two_pos|]. apply Qlt_le_weak, L2.
  - apply div_ge in L; [|exact B]. rewrite two_nat in L. change (Z.of_N 52) with 52%Z in L.
    apply (proj2 (times_le_r _ _ (qn b0) (qn_pos b0 B))). rewrite <- E, two_add.
    apply (proj1 (times_le_r _ _ (two e0) (two_pos e0))) in L. eapply Qle_trans; [|exact L]. apply Qle_lteq. right. ring.
Qed.
Theorem round_error m e : round_ratio num den = Some (m, e) -> (Qabs (fval m e - x) <= x * two (- 53) + two (- 1075))%Q.
Proof.
  unfold round_ratio. destruct (N.eqb_spec num 0) as [Z|Z].
  { intros [= <- <-]. unfold x. rewrite Z. change (fval 0 0) with (qn 0 * two 0)%Q. change (qn 0) with 0%Q.
    assert ((0 * two 0 - 0 / qn den) == 0)%Q as -> by (unfold Qdiv; ring). assert (0 / qn den * two (- 53) == 0)%Q as -> by (unfold Qdiv; ring).
    change (Qabs 0) with 0%Q. rewrite Qplus_0_l. apply Qlt_le_weak, two_pos. }
  pose proof (exponent_low Z) as EL. unfold exponent in EL. set (e0 := (Z.of_N (N.log2 num) - Z.of_N (N.log2 den) - 52)%Z) in *.
  destruct (scale2 num den e0) as [a0 b0]. set (e1 := if a0 / b0 <? 2 ^ 52 then (e0 - 1)%Z else e0) in *. clearbody e1. set (e2 := Z.max e1 (-1074)).
  destruct (scale2 num den e2) as [a b] eqn:S2. pose proof (mantissa_error e2 a b S2) as ME.
  assert (G : (Qabs (fval (round_half_even a b) e2 - x) <= x * two (- 53) + two (- 1075))%Q).
  { pose proof (two_pos (-1075)) as P1. pose proof (two_pos (- 53)) as P2. pose proof (two_pos (e1 + 52)) as P3.
    assert (X0 : (0 <= x)%Q) by lra. assert (X1 : (0 <= x * two (- 53))%Q) by (apply Qmult_le_0_compat; lra).
    assert (TE : (two e2 <= 2 * (x * two (- 53) + two (- 1075)))%Q); [|lra].
    unfold e2. destruct (Z.max_spec e1 (-1074)) as [[_ ->]|[_ ->]].
    - assert (two (-1074) == 2 * two (-1075))%Q as -> by (change 2%Q with (two 1) at 1; rewrite <- two_add; reflexivity). lra.
    - assert (two e1 == 2 * (two (e1 + 52) * two (- 53)))%Q as ->.
      { change 2%Q with (two 1) at 1. rewrite <- !two_add. f_equiv. lia. }
      assert (two (e1 + 52) * two (-53) <= x * two (- 53))%Q by (apply Qmult_le_compat_r; lra). lra. }
  set (r := round_half_even a b) in *. clearbody r.
  destruct (N.eqb_spec r (2 ^ 53)) as [R|R].
  - destruct (971 <? e2 + 1)%Z; [discriminate|]. intros [= <- <-].
    assert (fval 4503599627370496 (e2 + 1) == fval r e2)%Q as ->; [|exact G].
    unfold fval. rewrite R, two_add. change 4503599627370496 with (2 ^ 52). rewrite !two_nat. change (two 1) with 2%Q.
    change (Z.of_N 53) with (52 + 1)%Z. rewrite two_add. change (two 1) with 2%Q. change (Z.of_N 52) with 52%Z. ring.
  - destruct (971 <? e2)%Z; [discriminate|]. intros [= <- <-]. exact G.
Qed.
Theorem round_finite : (x < two 1023)%Q -> exists m e, round_ratio num den = Some (m, e).
Proof.
  intro Hx. unfold round_ratio. destruct (N.eqb_spec num 0) as [Z|Z]; [eauto|].
  pose proof (exponent_low Z) as EL. unfold exponent in EL. set (e0 := (Z.of_N (N.log2 num) - Z.of_N (N.log2 den) - 52)%Z) in *.
  destruct (scale2 num den e0) as [a0 b0]. set (e1 := if a0 / b0 <? 2 ^ 52 then (e0 - 1)%Z else e0) in *. clearbody e1.
  assert (e1 < 971)%Z. { destruct (Z_lt_le_dec e1 971) as [L|L]; [exact L|]. exfalso. assert (two 1023 <= two (e1 + 52))%Q by (apply two_le; lia). lra. }
  destruct (scale2 num den (Z.max e1 (-1074))) as [a b]. destruct (round_half_even a b =? 2 ^ 53).
  - destruct (Z.ltb_spec 971 (Z.max e1 (-1074) + 1)); [lia|]. eauto.
  - destruct (Z.ltb_spec 971 (Z.max e1 (-1074))); [lia|]. eauto.
Qed.
End R.

(** ** Near integers *)
Definition tolq : Q := 7555786372591432 # (2 ^ 76).
Lemma ratio_value m e a b : ratio_of m e = (a, b) -> b <> 0 /\ (qn a == fval m e * qn b)%Q.
Proof.
  intro H. destruct (scale2_value m 1 (- e) a b ltac:(discriminate) H) as [B E]. split; [exact B|].
  unfold fval. transitivity (qn a * (qn 1 * two (- e)) * two e)%Q; [|rewrite E; ring].
  transitivity (qn a * (two e * two (- e)))%Q; [rewrite two_opp; ring|change (qn 1) with 1%Q; ring].
Qed.
Lemma fin_round_near m e : (Qabs (qn (fin_round m e) - fval m e) * 2 <= 1)%Q.
Proof.
  unfold fin_round. destruct (ratio_of m e) as [a b] eqn:R. destruct (ratio_value m e a b R) as [B E]. pose proof (round_near a b B) as N.
  set (r := round_half_even a b) in *. clearbody r. pose proof (qn_pos b B) as PB. apply (proj2 (times_le_r _ _ (qn b) PB)). rewrite Qmult_1_l.
  eapply Qle_trans; [|exact N]. apply Qle_lteq. right. transitivity (Qabs (qn r - fval m e) * qn b * 2)%Q; [ring|]. rewrite abs_scale by exact PB.
  assert ((qn r - fval m e) * qn b == qn r * qn b - qn a)%Q as -> by (rewrite E; ring). reflexivity.
Qed.
Lemma qn_sub_abs a b : (Qabs (qn a - qn b) < 1)%Q -> a = b.
Proof.
  unfold qn. intro H. assert (H1 : (inject_Z (Z.of_N a) - inject_Z (Z.of_N b) < 1)%Q) by (eapply Qle_lt_trans; [apply Qle_Qabs|exact H]).
  assert (H2 : (inject_Z (Z.of_N b) - inject_Z (Z.of_N a) < 1)%Q).
  { rewrite Qabs_Qminus in H. eapply Qle_lt_trans; [apply Qle_Qabs|exact H]. }
  unfold Qlt in H1, H2. cbn in H1, H2. lia.
Qed.
Lemma near_round z m e : (Qabs (qn z - fval m e) * 2 < 1)%Q -> fin_round m e = z.
Proof.
  intro H. apply qn_sub_abs. pose proof (fin_round_near m e) as R. set (r := qn (fin_round m e)) in *. set (f := fval m e) in *.
  assert (T : (Qabs (r - qn z) <= Qabs (r - f) + Qabs (f - qn z))%Q).
  { assert ((r - qn z) == (r - f) + (f - qn z))%Q as -> by ring. apply Qabs_triangle. }
  rewrite (Qabs_Qminus f) in T. lra.
Qed.
Lemma float_is_int_near neg m e : float_is_int (FFin neg m e) = true <-> (Qabs (qn (fin_round m e) - fval m e) <= tolq)%Q.
Proof.
  unfold float_is_int, fin_round. destruct (ratio_of m e) as [a b] eqn:R. destruct (ratio_value m e a b R) as [B E].
  set (r := round_half_even a b). clearbody r. pose proof (qn_pos b B) as PB.
  assert (K : forall d, (qn d == Qabs (qn r - fval m e) * qn b)%Q -> (d * 2 ^ 76 <=? fst tol_1e7 * b) = true <-> (Qabs (qn r - fval m e) <= tolq)%Q).
  { intros d Hd. rewrite N.leb_le, qn_le, !qn_mul, Hd. cbn [fst tol_1e7]. rewrite two_nat.
    rewrite (times_le_r (Qabs (qn r - fval m e)) tolq (qn b * two 76)) by (apply Qmult_lt_0_compat; [exact PB|apply two_pos]).
    assert (qn 7555786372591432 == tolq * two 76)%Q as -> by (vm_compute; reflexivity).
    assert (Qabs (qn r - fval m e) * qn b * two (Z.of_N 76) == Qabs (qn r - fval m e) * (qn b * two 76))%Q as -> by (change (Z.of_N 76) with 76%Z; ring).
    assert (tolq * two 76 * qn b == tolq * (qn b * two 76))%Q as -> by ring. tauto. }
  assert (S : forall p q, q <= p -> (qn (p - q) == qn p - qn q)%Q).
  { intros p q L. assert (qn p == qn (p - q) + qn q)%Q as -> by (rewrite <- qn_add; f_equiv; f_equiv; lia). ring. }
  apply K. rewrite abs_scale by exact PB. assert ((qn r - fval m e) * qn b == qn r * qn b - qn a)%Q as -> by (rewrite E; ring).
  destruct (N.leb_spec (r * b) a) as [L|L].
  - rewrite S, qn_mul by exact L. apply qn_le in L. rewrite qn_mul in L. rewrite Qabs_neg by lra. ring.
  - rewrite S, qn_mul by lia. apply N.lt_le_incl, qn_le in L. rewrite qn_mul in L. rewrite Qabs_pos by lra. reflexivity.
Qed.

(** ** Decimals *)
Lemma two_below k n : (2 ^ k <=? n) = true -> (two (Z.of_N k) <= qn n)%Q.
Proof. intro H. rewrite <- two_nat. apply qn_le, N.leb_le, H. Qed.
Lemma two_above k n : (n <=? 2 ^ k) = true -> (qn n <= two (Z.of_N k))%Q.
Proof. intro H. rewrite <- two_nat. apply qn_le, N.leb_le, H. Qed.
Lemma times_mono a b c : (0 <= c -> a <= b -> c * a <= c * b)%Q.
Proof. intros. rewrite (Qmult_comm c a), (Qmult_comm c b). apply Qmult_le_compat_r; assumption. Qed.
Lemma two_opp' e : (two (- e) * two e == 1)%Q.
Proof. rewrite Qmult_comm. apply two_opp. Qed.
Definition decq (D k : N) : Q := (qn D / qn (10 ^ k))%Q.
Lemma ten_pos k : 10 ^ k <> 0.
Proof. apply N.pow_nonzero. discriminate. Qed.
Lemma decq_times D k : (decq D k * qn (10 ^ k) == qn D)%Q.
Proof. apply x_den, ten_pos. Qed.
Theorem dec_error neg D k : k <> 0 -> (decq D k < qn (10 ^ 300))%Q ->
  exists m e, float_of_dec neg D (- Z.of_N k) = FFin neg m e /\ (Qabs (fval m e - decq D k) <= decq D k * two (- 53) + two (- 1075))%Q.
Proof.
  intros K H. unfold float_of_dec. destruct (N.eqb_spec D 0) as [->|HD].
  { exists 0, 0%Z. split; [reflexivity|]. unfold decq. change (qn 0) with 0%Q. change (fval 0 0) with (0 * two 0)%Q.
    assert (0 * two 0 - 0 / qn (10 ^ k) == 0)%Q as -> by (unfold Qdiv; ring). assert (0 / qn (10 ^ k) * two (- 53) == 0)%Q as -> by (unfold Qdiv; ring).
    change (Qabs 0) with 0%Q. rewrite Qplus_0_l. apply Qlt_le_weak, two_pos. }
  destruct (dec_N_spec D) as (F & V & Ne & Z0). destruct (dec_N D) as [|c s] eqn:ED; [contradiction|]. inversion F as [|? ? Fc Fs]; subst.
  assert (C : c <> 48) by (intros ->; destruct (Z0 eq_refl) as [Z1 _]; congruence).
  pose proof (dec_value_lower c s Fc C Fs) as LO. pose proof (dec_value_bound (c :: s) F) as UP. set (D := dec_value (c :: s)) in *.
  pose proof (qn_pos _ (ten_pos k)) as PK. pose proof (decq_times D k) as DT. cbn [length] in *. set (l := length s) in *.
  assert (T1 : (Z.of_nat (S l) + - Z.of_N k <= 310)%Z).
  { destruct (Z_le_gt_dec (Z.of_nat (S l) + - Z.of_N k) 310) as [|G]; [assumption|exfalso].
    assert (qn (10 ^ 300) * qn (10 ^ k) <= qn D)%Q.
    { rewrite <- qn_mul, <- N.pow_add_r. apply qn_le. eapply N.le_trans; [|exact LO]. apply N.pow_le_mono_r; [discriminate|]. lia. }
    apply (Qmult_lt_compat_r _ _ _ PK) in H. rewrite DT in H. lra. }
  destruct (Z.ltb_spec 310 (Z.of_nat (S l) + - Z.of_N k)) as [G|_]; [lia|].
  destruct (Z.ltb_spec (Z.of_nat (S l) + - Z.of_N k) (-330)) as [G|_].
  { exists 0, 0%Z. split; [reflexivity|]. change (fval 0 0) with (0 * two 0)%Q.
    assert (S1 : (decq D k * qn (10 ^ 330) <= 1)%Q).
    { apply (proj2 (times_le_r _ _ _ PK)). rewrite Qmult_1_l.
      assert (decq D k * qn (10 ^ 330) * qn (10 ^ k) == qn D * qn (10 ^ 330))%Q as -> by (rewrite <- DT; ring).
      rewrite <- qn_mul. apply qn_le. eapply N.le_trans; [apply N.mul_le_mono_r, N.lt_le_incl, UP|]. rewrite <- N.pow_add_r.
      apply N.pow_le_mono_r; [discriminate|]. lia. }
    assert (X0 : (0 <= decq D k)%Q) by (apply (proj2 (times_le_r _ _ _ PK)); rewrite DT, Qmult_0_l; apply qn_nonneg).
    assert (0 * two 0 - decq D k == - decq D k)%Q as -> by ring. rewrite Qabs_opp, Qabs_pos by exact X0.
    assert (S2 : (decq D k * two 1075 <= 1)%Q).
    { eapply Qle_trans; [|exact S1]. pose proof (two_below 1075 (10 ^ 330) ltac:(vm_compute; reflexivity)).
      apply times_mono; assumption. }
    assert (S3 : (decq D k <= two (- 1075))%Q).
    { apply (proj2 (times_le_r _ _ (two 1075) (two_pos _))). eapply Qle_trans; [exact S2|]. apply Qle_lteq. right. symmetry. exact (two_opp' 1075). }
    assert (0 <= decq D k * two (- 53))%Q by (apply Qmult_le_0_compat; [exact X0|apply Qlt_le_weak, two_pos]). clear - S3 H0. set (t := two (- 1075)) in *. set (y := (decq D k * two (-53))%Q) in *. clearbody t y. lra. }
  destruct (Z.leb_spec 0 (- Z.of_N k)) as [G|_]; [lia|]. rewrite Z.opp_involutive, N2Z.id. unfold mk_float.
  destruct (round_finite D (10 ^ k) (ten_pos k)) as (m & e & R).
  { eapply Qlt_le_trans; [exact H|]. exact (two_above 1023 (10 ^ 300) ltac:(vm_compute; reflexivity)). }
  rewrite R. exists m, e. split; [reflexivity|]. exact (round_error D (10 ^ k) (ten_pos k) m e R).
Qed.
(** 1e-7, with room for the rounding *)
Definition slack (x : Q) : Q := (x / two 50)%Q.
Lemma tolq_near : (tolq <= 1 # 10000000)%Q /\ ((1 # 10000000) - (1 # 100000000000000000000000) <= tolq)%Q.
Proof. split; vm_compute; discriminate. Qed.
Lemma decq_nonneg D k : (0 <= decq D k)%Q.
Proof. apply (proj2 (times_le_r _ _ _ (qn_pos _ (ten_pos k)))). rewrite decq_times, Qmult_0_l. apply qn_nonneg. Qed.
Lemma abs_le x y : (Qabs x <= y)%Q <-> (x <= y /\ - x <= y)%Q.
Proof. rewrite Qabs_Qle_condition. split; intros [A B]; split; lra. Qed.
Theorem dec_integer neg D k z : k <> 0 -> (decq D k < qn (10 ^ 300))%Q -> (Qabs (decq D k - qn z) + slack (decq D k) <= 1 # 10000000)%Q ->
  exists m e, float_of_dec neg D (- Z.of_N k) = FFin neg m e /\ float_is_int (FFin neg m e) = true /\ fin_round m e = z.
Proof.
  intros K H N. destruct (dec_error neg D k K H) as (m & e & E & R). exists m, e. split; [exact E|]. pose proof (decq_nonneg D k) as X0.
  set (x := decq D k) in *. clearbody x. unfold slack in N.
  assert (S50 : (x / two 50 == x * (1 # 1125899906842624))%Q) by reflexivity. rewrite S50 in N. clear S50.
  assert (S53 : (x * two (- 53) == x * (1 # 9007199254740992))%Q) by reflexivity. rewrite S53 in R. clear S53.
  assert (S75 : (two (- 1075) <= 1 # 100000000000000000000000000)%Q) by (vm_compute; discriminate).
  set (t := two (-1075)) in *. clearbody t. set (f := fval m e) in *.
  assert (NR : (Qabs (qn z - f) <= tolq)%Q).
  { destruct tolq_near as [_ T]. set (q := tolq) in *. clearbody q f. apply abs_le in R. assert (N' : (Qabs (x - qn z) <= (1 # 10000000) - x * (1 # 1125899906842624))%Q) by lra.
    apply abs_le in N'. destruct R as [R1 R2], N' as [N1 N2]. clear N. apply abs_le.
    destruct (Qlt_le_dec x (1 # 20000000)) as [L|L]; [|split; lra].
    assert (z = 0) as ->; [|change (qn 0) with 0%Q in *; split; lra].
    destruct z as [|p]; [reflexivity|exfalso]. assert (1 <= qn (Npos p))%Q by (change 1%Q with (qn 1); apply qn_le; lia). lra. }
  assert (Z1 : fin_round m e = z). { apply near_round. fold f. destruct tolq_near as [T _]. lra. }
  split; [|exact Z1]. apply float_is_int_near. rewrite Z1. exact NR.
Qed.
Theorem dec_noninteger neg D k : k <> 0 -> (forall z, 1 # 10000000 < Qabs (decq D k - qn z) - slack (decq D k))%Q ->
  exists m e, float_of_dec neg D (- Z.of_N k) = FFin neg m e /\ float_is_int (FFin neg m e) = false.
Proof.
  intros K N. pose proof (decq_nonneg D k) as X0.
  assert (H : (decq D k < two 50)%Q).
  { (* the distance to the floor is below 1 *)
    pose proof (N (D / 10 ^ k)) as Nz. pose proof (N.div_mod D (10 ^ k) (ten_pos k)) as E. pose proof (N.mod_lt D (10 ^ k) (ten_pos k)) as L.
    assert (E' : (decq D k - qn (D / 10 ^ k) == decq (D mod 10 ^ k) k)%Q).
    { unfold decq. rewrite E at 1. rewrite qn_add, qn_mul. field. pose proof (qn_pos _ (ten_pos k)) as P. intro Z. rewrite Z in P. discriminate P. }
    rewrite E' in Nz. rewrite Qabs_pos in Nz by apply decq_nonneg.
    assert (decq (D mod 10 ^ k) k < 1)%Q. { apply Qlt_shift_div_r; [apply qn_pos, ten_pos|]. rewrite Qmult_1_l. apply qn_lt, L. }
    assert (SL : (slack (decq D k) < 1)%Q) by lra. unfold slack in SL. apply (Qmult_lt_compat_r _ _ (two 50) (two_pos 50)) in SL.
    rewrite Qmult_1_l in SL. eapply Qle_lt_trans; [|exact SL]. apply Qle_lteq. right. field. vm_compute. discriminate. }
  destruct (dec_error neg D k K) as (m & e & E & R). { eapply Qlt_le_trans; [exact H|]. exact (two_below 50 (10 ^ 300) ltac:(vm_compute; reflexivity)). }
  exists m, e. split; [exact E|]. destruct (float_is_int (FFin neg m e)) eqn:I; [exfalso|reflexivity]. apply float_is_int_near in I.
  pose proof (N 0) as N0. specialize (N (fin_round m e)). set (x := decq D k) in *. clearbody x. unfold slack in N, N0.
  assert (S50 : (x / two 50 == x * (1 # 1125899906842624))%Q) by reflexivity. rewrite S50 in N, N0. clear S50.
  assert (S53 : (x * two (- 53) == x * (1 # 9007199254740992))%Q) by reflexivity. rewrite S53 in R. clear S53.
  assert (S75 : (two (- 1075) <= 1 # 100000000000000000000000000)%Q) by (vm_compute; discriminate).
  set (t := two (-1075)) in *. clearbody t. set (f := fval m e) in *. clearbody f. set (z := qn (fin_round m e)) in *. clearbody z.
  destruct tolq_near as [T _]. set (q := tolq) in *. clearbody q. apply abs_le in R. apply abs_le in I. clear E.
  assert (A : (Qabs (x - z) <= q + x * (1 # 9007199254740992) + t)%Q) by (apply abs_le; split; lra).
  clear R I. revert A N N0. generalize (Qabs (x - z)). clear - X0 T S75. intros w A N N0. change (qn 0) with 0%Q in N0. rewrite Qabs_pos in N0 by lra. lra.
Qed.
(** ** A hundredth *)
Theorem div100_error neg m e : (fval m e < two 1024)%Q ->
  exists m' e', div100 (FFin neg m e) = FFin neg m' e' /\ (Qabs (fval m' e' - fval m e / 100) <= fval m e / 100 * two (- 53) + two (- 1075))%Q.
Proof.
  intro H. cbn [div100]. destruct (ratio_of m e) as [a b] eqn:R. destruct (ratio_value m e a b R) as [B Ea].
  assert (D : b * 100 <> 0) by lia. pose proof (qn_pos b B) as PB.
  assert (X : (qn a / qn (b * 100) == fval m e / 100)%Q). { rewrite qn_mul, Ea. change (qn 100) with 100%Q. field. lra. }
  destruct (round_finite a (b * 100) D) as (m' & e' & Rr).
  { rewrite X. assert (two 1024 == 2 * two 1023)%Q as T by (change 2%Q with (two 1) at 1; rewrite <- two_add; reflexivity). rewrite T in H. pose proof (two_pos 1023). unfold Qdiv. change (/ 100)%Q with (1 # 100)%Q. lra. }
  exists m', e'. split; [unfold mk_float; rewrite Rr; reflexivity|]. pose proof (round_error a (b * 100) D m' e' Rr) as Er. rewrite X in Er. exact Er.
Qed.
