(** Scientific literals: '{:e}' keeps seven significant digits. *)
From Coq Require Import String List NArith ZArith QArith Qabs Qpower Bool Lia Lqa Arith.
From Verif Require Import UnicodeTables PyStr PyStrTheory NumTheory Regex RegexTheory Float64 FloatTheory Constants Normalize NormTheory RegexFirst NormNum NormPct NormMixed.
Import ListNotations.
Local Open Scope N_scope.
Local Arguments N.eqb : simpl never.

(** ** Specification: the value of a finite float and of digits D scaled by 10^x *)
Definition float_abs (m : N) (e : Z) : Q := (inject_Z (Z.of_N m) * Qpower 2 e)%Q.
Definition scaled (D : N) (x : Z) : Q := (inject_Z (Z.of_N D) * Qpower 10 x)%Q.

(** ** The position of the decimal point *)
Lemma dec_N_length_ge n : 0 < n -> 10 ^ N.of_nat (length (dec_N n) - 1) <= n < 10 ^ N.of_nat (length (dec_N n)).
Proof.
  intro H. destruct (dec_N_spec n) as (F & V & Hne & Hz). split.
  - destruct (dec_N n) as [|c s] eqn:E; [contradiction|]. inversion F as [|? ? Hc Fs]; subst.
    destruct (N.eq_dec c 48) as [->|Hc']; [destruct (Hz eq_refl); lia|].
    cbn [length]. rewrite Nat.sub_succ, Nat.sub_0_r. apply dec_value_lower; assumption.
  - rewrite <- V at 1. apply dec_value_bound, F.
Qed.
Lemma decpt_small_spec fuel : forall a b t, a < b -> b <= a * 10 ^ N.of_nat fuel ->
  exists j, decpt_small fuel a b t = (t - Z.of_nat (S j))%Z /\ a * 10 ^ N.of_nat j < b <= a * 10 ^ N.of_nat (S j).
Proof.
  induction fuel as [|f IH]; intros a b t H1 H2; [cbn in H2; lia|].
  cbn [decpt_small]. destruct (N.ltb_spec a b) as [_|Hx]; [|lia].
  destruct (N.ltb_spec (a * 10) b) as [Hl|Hg].
  - destruct (IH (a * 10) b (t - 1)%Z Hl) as (j & E & B).
    { rewrite Nat2N.inj_succ, N.pow_succ_r' in H2. lia. }
    exists (S j). split; [rewrite E; lia|].
    rewrite (Nat2N.inj_succ (S j)), (Nat2N.inj_succ j), !N.pow_succ_r' in *. lia.
  - exists O. split; [|cbn; lia]. destruct f as [|f]; cbn [decpt_small]; [lia|].
    destruct (N.ltb_spec (a * 10) b) as [Hx|_]; [lia|]. lia.
Qed.
Lemma decpt_of_spec a b : 0 < a -> 0 < b -> b <= a * 10 ^ 400 ->
  let (a', b') := scale10 a b (7 - decpt_of a b) in 0 < b' /\ 10 ^ 6 * b' <= a' < 10 ^ 7 * b'.
Proof.
  intros Ha Hb Hlow. unfold decpt_of. destruct (N.leb_spec b a) as [Hba|Hab].
  - set (n := a / b). assert (Hn : 0 < n) by (apply N.div_str_pos; lia).
    pose proof (dec_N_length_ge n Hn) as [L1 L2].
    pose proof (N.mul_div_le a b ltac:(lia)) as D1. pose proof (N.mul_succ_div_gt a b ltac:(lia)) as D2. fold n in D1, D2.
    assert (Hlen : (0 < length (dec_N n))%nat) by (destruct (dec_N n) as [|c l] eqn:E; [cbn in L2; lia|cbn; lia]).
    set (k := length (dec_N n)) in *. clearbody k n.
    unfold scale10. destruct (Z.leb_spec 0 (7 - Z.of_nat k)) as [H7|H7].
    + split; [exact Hb|]. replace (Z.to_N (7 - Z.of_nat k)) with (7 - N.of_nat k) by lia.
      assert (E1 : 10 ^ 6 = 10 ^ N.of_nat (k - 1) * 10 ^ (7 - N.of_nat k)) by (rewrite <- N.pow_add_r; f_equal; lia).
      assert (E2 : 10 ^ 7 = 10 ^ N.of_nat k * 10 ^ (7 - N.of_nat k)) by (rewrite <- N.pow_add_r; f_equal; lia).
      rewrite E1, E2. pose proof (N.pow_nonzero 10 (7 - N.of_nat k) ltac:(lia)).
      set (p := 10 ^ (7 - N.of_nat k)) in *. set (q := 10 ^ N.of_nat (k - 1)) in *. set (q' := 10 ^ N.of_nat k) in *. clearbody p q q'. split; nia.
    + replace (Z.to_N (- (7 - Z.of_nat k))) with (N.of_nat k - 7) by lia.
      pose proof (N.pow_nonzero 10 (N.of_nat k - 7) ltac:(lia)).
      split; [nia|].
      assert (E1 : 10 ^ N.of_nat (k - 1) = 10 ^ 6 * 10 ^ (N.of_nat k - 7)) by (rewrite <- N.pow_add_r; f_equal; lia).
      assert (E2 : 10 ^ N.of_nat k = 10 ^ 7 * 10 ^ (N.of_nat k - 7)) by (rewrite <- N.pow_add_r; f_equal; lia).
      rewrite E1 in L1. rewrite E2 in L2. set (p := 10 ^ (N.of_nat k - 7)) in *. clearbody p.
      set (c6 := 10 ^ 6) in *. set (c7 := 10 ^ 7) in *. clearbody c6 c7. split; nia.
  - destruct (decpt_small_spec 400 a b 1 Hab) as (j & E & B1 & B2); [exact Hlow|]. rewrite E.
    unfold scale10. destruct (Z.leb_spec 0 (7 - (1 - Z.of_nat (S j)))) as [_|H7]; [|lia].
    split; [exact Hb|]. replace (Z.to_N (7 - (1 - Z.of_nat (S j)))) with (6 + N.of_nat (S j)) by lia.
    rewrite N.pow_add_r. rewrite Nat2N.inj_succ, N.pow_succ_r' in *.
    set (p := 10 ^ N.of_nat j) in *. clearbody p. change (10 ^ 7) with (10 * 10 ^ 6). set (c6 := 10 ^ 6) in *.
    assert (0 < c6) by reflexivity. clearbody c6. split; nia.
Qed.
Lemma round_half_even_near a b : 0 < b -> 2 * (round_half_even a b) * b <= 2 * a + b /\ 2 * a <= 2 * round_half_even a b * b + b.
Proof.
  intro Hb. unfold round_half_even. pose proof (N.div_mod a b ltac:(lia)) as D. pose proof (N.mod_lt a b ltac:(lia)) as M.
  set (q := a / b) in *. set (r := a mod b) in *. clearbody q r.
  destruct (N.compare_spec (2 * r) b); [destruct (is_even q)| |]; nia.
Qed.

(** ** Fractions *)
Definition frac_q (a b : N) : Q := (inject_Z (Z.of_N a) / inject_Z (Z.of_N b))%Q.
Lemma injN_neq0 n : 0 < n -> ~ (inject_Z (Z.of_N n) == 0)%Q.
Proof. intros H E. unfold Qeq in E. cbn in E. lia. Qed.
Lemma injN_mul a b : (inject_Z (Z.of_N (a * b)) == inject_Z (Z.of_N a) * inject_Z (Z.of_N b))%Q.
Proof. rewrite N2Z.inj_mul, inject_Z_mult. reflexivity. Qed.
Lemma injN_pow p n : (inject_Z (Z.of_N (p ^ n)) == Qpower (inject_Z (Z.of_N p)) (Z.of_N n))%Q.
Proof.
  rewrite N2Z.inj_pow. apply Qpower.Zpower_Qpower. lia.
Qed.
Lemma ratio_of_q m e : let (a, b) := ratio_of m e in 0 < b /\ (0 < m -> 0 < a) /\ (frac_q a b == float_abs m e)%Q.
Proof.
  unfold ratio_of, scale2. destruct (Z.leb_spec 0 (- e)) as [H|H].
  - split; [pose proof (pow2_pos (Z.to_N (- e))); lia|]. split; [tauto|].
    unfold frac_q, float_abs. rewrite N.mul_1_l, injN_pow. rewrite Z2N.id by lia. change (Z.of_N 2) with 2%Z.
    change (inject_Z 2) with 2%Q. rewrite Qpower_opp. unfold Qdiv. rewrite Qinv_involutive. reflexivity.
  - split; [lia|]. split; [pose proof (pow2_pos (Z.to_N (- - e))); nia|].
    unfold frac_q, float_abs. rewrite Z.opp_involutive, injN_mul, injN_pow, Z2N.id by lia. change (inject_Z (Z.of_N 2)) with 2%Q.
    change (inject_Z (Z.of_N 1)) with 1%Q. field.
Qed.
Lemma pow10_neq0 t : ~ (Qpower 10 t == 0)%Q.
Proof. apply Qpower_not_0. discriminate. Qed.
Lemma pow10_pos t : (0 < Qpower 10 t)%Q.
Proof.
  assert (0 <= Qpower 10 t)%Q by (apply Qpower_pos; discriminate). pose proof (pow10_neq0 t).
  destruct (Qlt_le_dec 0 (Qpower 10 t)) as [L|L]; [exact L|]. exfalso. apply H0. apply Qle_antisym; assumption.
Qed.
Lemma scale10_q a b t : 0 < b -> let (a', b') := scale10 a b t in 0 < b' /\ (frac_q a' b' == frac_q a b * Qpower 10 t)%Q.
Proof.
  intro Hb. pose proof (injN_neq0 b Hb) as Nb. unfold scale10. destruct (Z.leb_spec 0 t) as [H|H].
  - split; [exact Hb|]. unfold frac_q. rewrite injN_mul, injN_pow, Z2N.id by lia. change (inject_Z (Z.of_N 10)) with 10%Q. field. exact Nb.
  - assert (10 ^ Z.to_N (- t) <> 0) by (apply N.pow_nonzero; discriminate). split; [nia|]. unfold frac_q. rewrite injN_mul, injN_pow, Z2N.id by lia.
    change (inject_Z (Z.of_N 10)) with 10%Q. rewrite Qpower_opp. field. split; [exact Nb|apply pow10_neq0].
Qed.
Lemma near_q D a b : 0 < b -> 2 * D * b <= 2 * a + b -> 2 * a <= 2 * D * b + b ->
  (Qabs (inject_Z (Z.of_N D) - frac_q a b) <= 1 # 2)%Q.
Proof.
  intros Hb H1 H2. apply Qabs_Qle_condition. unfold frac_q.
  assert (B : (0 < inject_Z (Z.of_N b))%Q) by (change 0%Q with (inject_Z 0); rewrite <- Zlt_Qlt; lia).
  assert (I1 : (2 * inject_Z (Z.of_N D) * inject_Z (Z.of_N b) <= 2 * inject_Z (Z.of_N a) + inject_Z (Z.of_N b))%Q).
  { change 2%Q with (inject_Z 2). rewrite <- !inject_Z_mult, <- inject_Z_plus, <- Zle_Qle. lia. }
  assert (I2 : (2 * inject_Z (Z.of_N a) <= 2 * inject_Z (Z.of_N D) * inject_Z (Z.of_N b) + inject_Z (Z.of_N b))%Q).
  { change 2%Q with (inject_Z 2). rewrite <- !inject_Z_mult, <- inject_Z_plus, <- Zle_Qle. lia. }
  set (qb := inject_Z (Z.of_N b)) in *. set (qa := inject_Z (Z.of_N a)) in *. set (qd := inject_Z (Z.of_N D)) in *. clearbody qb qa qd.
  split.
  - assert (qa / qb <= qd + (1 # 2))%Q by (apply Qle_shift_div_r; [exact B|]; lra). lra.
  - assert (qd - (1 # 2) <= qa / qb)%Q by (apply Qle_shift_div_l; [exact B|]; lra). lra.
Qed.

(** ** '{:e}' *)
Lemma seven_digits D : 10 ^ 6 <= D < 10 ^ 7 -> exists d ds, dec_N D = d :: ds /\ length ds = 6%nat /\ ascii_digit d /\ d <> 48 /\ Forall ascii_digit ds.
Proof.
  intro H. destruct (dec_N_spec D) as (F & V & Hne & Hz). pose proof (dec_N_length_ge D ltac:(lia)) as [L1 L2].
  destruct (dec_N D) as [|d ds] eqn:E; [contradiction|]. inversion F as [|? ? Hd Fs]; subst. exists d, ds. split; [reflexivity|].
  cbn [length] in L1, L2. rewrite Nat.sub_succ, Nat.sub_0_r in L1.
  assert (N.of_nat (length ds) < 7) by (apply (N.pow_lt_mono_r_iff 10); lia).
  assert (6 < N.of_nat (S (length ds))) by (apply (N.pow_lt_mono_r_iff 10); lia).
  split; [lia|]. split; [exact Hd|]. split; [|exact Fs].
  intros ->. destruct (Hz eq_refl); lia.
Qed.
Lemma format_e_spec m e : 0 < m -> (-1074 <= e)%Z -> exists d ds x,
  format_e_fin m e = d :: 46 :: ds ++ exp_suffix x /\ length ds = 6%nat /\ ascii_digit d /\ d <> 48 /\ Forall ascii_digit ds /\
  (Qabs (scaled (dec_value (d :: ds)) (x - 6) - float_abs m e) <= (1 # 2) * Qpower 10 (x - 6))%Q.
Proof.
  intros Hm He. unfold format_e_fin. destruct (N.eqb_spec m 0) as [->|_]; [lia|].
  pose proof (ratio_of_q m e) as R.
  assert (Low : let (a, b) := ratio_of m e in b <= a * 10 ^ 400).
  { unfold ratio_of, scale2. destruct (Z.leb_spec 0 (- e)) as [H|H].
    - rewrite N.mul_1_l. assert (2 ^ Z.to_N (- e) <= 2 ^ 1074) by (apply N.pow_le_mono_r; lia).
      assert (2 ^ 1074 <= 10 ^ 400) by (apply N.leb_le; vm_compute; reflexivity).
      set (p := 2 ^ 1074) in *. set (q := 10 ^ 400) in *. set (r := 2 ^ Z.to_N (- e)) in *. clearbody p q r. nia.
    - assert (1 <= 10 ^ 400) by (apply N.leb_le; vm_compute; reflexivity). pose proof (pow2_pos (Z.to_N (- - e))).
      set (q := 10 ^ 400) in *. set (r := 2 ^ Z.to_N (- - e)) in *. clearbody q r. nia. }
  destruct (ratio_of m e) as [a b]. destruct R as (Hb & Ha & Rq). specialize (Ha Hm).
  pose proof (decpt_of_spec a b Ha Hb Low) as S. pose proof (scale10_q a b (7 - decpt_of a b) Hb) as Sq.
  destruct (scale10 a b (7 - decpt_of a b)) as [a' b']. destruct S as (Hb' & S1 & S2). destruct Sq as [_ Sq].
  set (t := decpt_of a b) in *. clearbody t.
  pose proof (round_half_even_near a' b' Hb') as [N1 N2]. set (D := round_half_even a' b') in *. clearbody D.
  assert (DB : 10 ^ 6 <= D <= 10 ^ 7).
  { change (10 ^ 6) with 1000000 in *. change (10 ^ 7) with 10000000 in *. split; nia. }
  pose proof (near_q D a' b' Hb' N1 N2) as Nq.
  assert (X : (Qabs (scaled D (t - 7) - float_abs m e) <= (1 # 2) * Qpower 10 (t - 7))%Q).
  { unfold scaled. rewrite <- Rq. setoid_replace (frac_q a b) with (frac_q a' b' * Qpower 10 (t - 7))%Q.
    - setoid_replace (inject_Z (Z.of_N D) * Qpower 10 (t - 7) - frac_q a' b' * Qpower 10 (t - 7))%Q
        with ((inject_Z (Z.of_N D) - frac_q a' b') * Qpower 10 (t - 7))%Q by ring.
      rewrite Qabs_Qmult, (Qabs_pos (Qpower 10 (t - 7))) by (apply Qlt_le_weak, pow10_pos).
      apply Qmult_le_compat_r; [exact Nq|apply Qlt_le_weak, pow10_pos].
    - rewrite Sq. replace (t - 7)%Z with (- (7 - t))%Z by lia. rewrite Qpower_opp. field. apply pow10_neq0. }
  destruct (N.eqb_spec D (10 ^ 7)) as [E7|N7].
  - change (dec_N (10 ^ 6)) with [49; 48; 48; 48; 48; 48; 48]. exists 49, [48; 48; 48; 48; 48; 48], (t + 1 - 1)%Z. split; [reflexivity|]. split; [reflexivity|].
    split; [unfold ascii_digit; lia|]. split; [discriminate|]. split; [repeat (apply Forall_cons; [unfold ascii_digit; lia|]); apply Forall_nil|].
    assert (P : (Qpower 10 (t + 1 - 1 - 6) == 10 * Qpower 10 (t - 7))%Q).
    { replace (t + 1 - 1 - 6)%Z with (1 + (t - 7))%Z by lia. rewrite Qpower_plus by discriminate. reflexivity. }
    assert (V : (scaled (dec_value [49; 48; 48; 48; 48; 48; 48]%N) (t + 1 - 1 - 6) == scaled D (t - 7))%Q).
    { unfold scaled. rewrite P, E7. change (dec_value [49; 48; 48; 48; 48; 48; 48]) with 1000000. change (10 ^ 7) with 10000000.
      change (inject_Z (Z.of_N 1000000)) with (1000000 # 1). change (inject_Z (Z.of_N 10000000)) with (10000000 # 1). ring. }
    rewrite V, P. eapply Qle_trans; [exact X|]. pose proof (pow10_pos (t - 7)). lra.
  - destruct (seven_digits D ltac:(lia)) as (d & ds & E & L & Hd & H48 & Fs). rewrite E. exists d, ds, (t - 1)%Z.
    split; [reflexivity|]. split; [exact L|]. split; [exact Hd|]. split; [exact H48|]. split; [exact Fs|].
    rewrite <- E. destruct (dec_N_spec D) as (_ & V & _). rewrite V. replace (t - 1 - 6)%Z with (t - 7)%Z by lia. exact X.
Qed.

(** ** Literals *)
Lemma round_ratio_low a b m e : round_ratio a b = Some (m, e) -> (-1074 <= e)%Z.
Proof.
  unfold round_ratio. destruct (a =? 0); [intros [= <- <-]; lia|]. destruct (scale2 a b _) as [a0 b0].
  destruct (scale2 a b _) as [a1 b1]. intro H.
  match type of H with context [Z.max ?x ?y] => set (e' := Z.max x y) in *; assert (E : (-1074 <= e')%Z) by (unfold e'; lia); clearbody e' end.
  destruct (_ =? _) in H; destruct (_ <? _)%Z in H; try discriminate; injection H; lia.
Qed.
Lemma float_of_dec_low neg D x n m e : float_of_dec neg D x = FFin n m e -> n = neg /\ (-1074 <= e)%Z.
Proof.
  unfold float_of_dec. destruct (D =? 0); [intros [= <- <- <-]; split; [reflexivity|lia]|].
  destruct (310 <? _)%Z; [discriminate|]. destruct (_ <? -330)%Z; [intros [= <- <- <-]; split; [reflexivity|lia]|].
  assert (G : forall a b, mk_float neg a b = FFin n m e -> n = neg /\ (-1074 <= e)%Z).
  { intros a b. unfold mk_float. destruct (round_ratio a b) as [[m' e']|] eqn:E; [|discriminate]. intros [= <- <- <-].
    split; [reflexivity|]. eapply round_ratio_low; exact E. }
  destruct (0 <=? x)%Z; apply G.
Qed.
Lemma parse_unsigned_low neg s n m e : parse_unsigned neg s = Some (FFin n m e) -> (-1074 <= e)%Z.
Proof.
  unfold parse_unsigned. destruct (_ || _); [discriminate|]. destruct (str_eqb _ _); [discriminate|].
  destruct (span_digits s) as [i r].
  assert (G : forall q : pystr * pystr, (let '(f, r2) := q in match i ++ f with
     | [] => None
     | ds => match parse_exponent r2 with
             | Some e => Some (float_of_dec neg (ascii_int ds) (e - Z.of_nat (length f))%Z)
             | None => None end end) = Some (FFin n m e) -> (-1074 <= e)%Z).
  { intros [f r2]. destruct (i ++ f); [discriminate|]. destruct (parse_exponent r2); [|discriminate]. intros [= H].
    apply (float_of_dec_low _ _ _ _ _ _ H). }
  apply G.
Qed.
Lemma py_float_low s n m e : py_float s = Some (FFin n m e) -> (-1074 <= e)%Z.
Proof.
  unfold py_float. destruct (drop_underscores _ _) as [t|]; [|discriminate]. intro H.
  assert (G : exists neg t', parse_unsigned neg t' = Some (FFin n m e)).
  { destruct t as [|x t]; [eauto|]. destruct x as [|p]; [eauto|]. do 6 (destruct p as [p|p|]; eauto). }
  destruct G as (neg & t' & G). eapply parse_unsigned_low; exact G.
Qed.

Definition sci_cp : N -> bool := digits_and (u ".e+-").
Lemma sci_inert : inert sci_cp = true.
Proof. vm_compute. reflexivity. Qed.
Definition sciout_cp : N -> bool := digits_and (u ".+-*^{}").
Lemma exp_digits x : forallb (digits_and []) (pad2 x) = true.
Proof.
  unfold pad2. destruct (dec_N_spec x) as (F & _). destruct (x <? 10); [|apply digits_and_digit, F].
  cbn [forallb]. rewrite digits_and_digit by exact F. reflexivity.
Qed.
Definition exp_text (x : Z) : pystr := (if (x <? 0)%Z then [45] else [43]) ++ pad2 (Z.abs_N x).
Definition sci_text (neg : bool) (d : N) (ds : pystr) (x : Z) : pystr :=
  sign neg ++ d :: 46 :: ds ++ u "*10^{" ++ exp_text x ++ [125].
Lemma replace_one c new s : replace [c] new (c :: s) = new ++ replace [c] new s.
Proof. unfold replace. cbn [replace_go starts_with]. rewrite N.eqb_refl. reflexivity. Qed.
Lemma sci_replace neg d ds x : ascii_digit d -> Forall ascii_digit ds ->
  replace (u "e") (u "*10^{") (sign neg ++ d :: 46 :: ds ++ exp_suffix x) ++ [125] = sci_text neg d ds x.
Proof.
  intros Hd F. change (u "e") with [101]. unfold sci_text.
  replace (sign neg ++ d :: 46 :: ds ++ exp_suffix x) with ((sign neg ++ [d] ++ [46] ++ ds) ++ exp_suffix x) by (rewrite <- !app_assoc; reflexivity).
  rewrite (replace_prefix (digits_and (u ".-"))); [|reflexivity|].
  - rewrite <- !app_assoc. cbn [app]. f_equal. f_equal. f_equal. f_equal. unfold exp_suffix. rewrite replace_one.
    assert (E : replace [101] (u "*10^{") ((if (x <? 0)%Z then 45 else 43) :: pad2 (Z.abs_N x)) = exp_text x).
    { unfold exp_text. transitivity ((if (x <? 0)%Z then 45 else 43) :: pad2 (Z.abs_N x)); [|destruct (x <? 0)%Z; reflexivity].
      apply (alpha_replace (digits_and (u "+-")) [101] (u "*10^{") ((if (x <? 0)%Z then 45 else 43) :: pad2 (Z.abs_N x))); [reflexivity|]. cbn [forallb].
      rewrite (forallb_impl (digits_and [])); [destruct (x <? 0)%Z; reflexivity| |apply exp_digits].
      intros c. unfold digits_and. cbn. destruct (is_ascii_digit c); [reflexivity|discriminate]. }
    rewrite E, <- app_assoc. reflexivity.
  - rewrite !forallb_app, (digits_and_digit _ ds F), (digits_and_digit _ [d]) by (constructor; [exact Hd|constructor]). destruct neg; reflexivity.
Qed.
Lemma sci_out_alpha neg d ds x : ascii_digit d -> Forall ascii_digit ds -> forallb sciout_cp (sci_text neg d ds x) = true.
Proof.
  intros Hd F. unfold sci_text, exp_text.
  change (sign neg ++ d :: 46 :: ds ++ u "*10^{" ++ ((if (x <? 0)%Z then [45] else [43]) ++ pad2 (Z.abs_N x)) ++ [125])
    with (sign neg ++ [d] ++ [46] ++ ds ++ u "*10^{" ++ ((if (x <? 0)%Z then [45] else [43]) ++ pad2 (Z.abs_N x)) ++ [125]).
  rewrite !forallb_app. unfold sciout_cp. rewrite (digits_and_digit _ ds F), (digits_and_digit _ [d]) by (constructor; [exact Hd|constructor]).
  rewrite (forallb_impl (digits_and []) _ (pad2 (Z.abs_N x))); [|intros c; unfold digits_and; cbn; destruct (is_ascii_digit c); [reflexivity|discriminate]|apply exp_digits].
  destruct neg, (x <? 0)%Z; reflexivity.
Qed.
Lemma sciout_lower c : sciout_cp c = true -> lower_cp c = [c].
Proof.
  revert c. apply (digits_and_cases _ (fun c => lower_cp c = [c])).
  - apply lower_digit.
  - repeat (constructor; [vm_compute; reflexivity|]). constructor.
Qed.
Lemma further_steps0 ints s e0 e1 e2 e3 e4 e5 :
  starts_with [123] s = false -> norm_int s = e0 -> (if contains [bslash] e0 then parse_latex e0 else e0) = e1 ->
  re_sub (RSeq (lit 45) (RStarG sp)) [PLit (u "-")] e1 = e2 -> inject_mixed e2 = e3 -> replace [32] [] e3 = e4 -> lower e4 = e5 ->
  further ints s = if str_is_int e5 then ints e5 else e5.
Proof. intros H1 H2 H3 H4 H5 H6 H7. unfold further. rewrite H1. cbn [andb]. cbv zeta. rewrite H2, H3, H4, H5, H6, H7. reflexivity. Qed.
Lemma contains_one c s : In c s -> contains [c] s = true.
Proof. intro H. apply contains_spec. apply in_split in H. destruct H as (a & b & ->). exists a, b. reflexivity. Qed.
Lemma sci_normalize ints s neg m e : forallb sci_cp s = true -> In 101 s -> py_float s = Some (FFin neg m e) ->
  float_is_int (FFin neg m e) = true -> 0 < m ->
  exists d ds x, string_normalize ints s = NStr (sci_text neg d ds x) /\ format_e (FFin neg m e) = sign neg ++ d :: 46 :: ds ++ exp_suffix x /\
    length ds = 6%nat /\ ascii_digit d /\ d <> 48 /\ Forall ascii_digit ds /\
    (Qabs (scaled (dec_value (d :: ds)) (x - 6) - float_abs m e) <= (1 # 2) * Qpower 10 (x - 6))%Q.
Proof.
  intros Hs He Hf Hi Hm. destruct (format_e_spec m e Hm (py_float_low _ _ _ _ Hf)) as (d & ds & x & E & L & Hd & H48 & F & A).
  exists d, ds, x. assert (Ef : format_e (FFin neg m e) = sign neg ++ d :: 46 :: ds ++ exp_suffix x) by (cbn [format_e]; rewrite E; reflexivity).
  split; [|auto 10].
  rewrite (inert_normalize sci_cp sci_inert s Hs).
  - f_equal. pose proof (sci_out_alpha neg d ds x Hd F) as Ho. set (out := sci_text neg d ds x) in *.
    rewrite (further_steps0 ints s out out out out out out).
    + assert (str_is_int out = false) as ->; [|reflexivity]. unfold str_is_int, strip_commas.
      rewrite (alpha_sub_fun sciout_cp) by ((vm_compute; reflexivity) || exact Ho).
      rewrite (bad_float 123); [reflexivity|bad|]. unfold out, sci_text. apply in_or_app. right. right. right. apply in_or_app. right. cbn. tauto.
    + apply (foreign_starts sci_cp); [reflexivity|exact Hs].
    + unfold norm_int. rewrite Hf, Hi. change (u "e") with [101]. rewrite (contains_one 101 s He).
      unfold float_to_latex_scientific. rewrite Hf. cbn [float_is_zero]. destruct (N.eqb_spec m 0); [lia|]. rewrite Ef. apply sci_replace; assumption.
    + rewrite (alpha_contains sciout_cp) by (reflexivity || exact Ho). reflexivity.
    + apply minus_sub_id, (alpha_not_in sciout_cp); [reflexivity|exact Ho].
    + unfold inject_mixed. rewrite (alpha_sub sciout_cp mixed_re1), (alpha_sub sciout_cp mixed_re2) by ((vm_compute; reflexivity) || exact Ho). reflexivity.
    + apply (alpha_replace sciout_cp); [reflexivity|exact Ho].
    + apply (lower_id sciout_cp); [exact sciout_lower|exact Ho].
  - apply (alpha_contains sci_cp); [reflexivity|exact Hs].
  - apply strip_sp_id, (alpha_not_in sci_cp); [reflexivity|exact Hs].
Qed.

(** Literals printed alike have the same normal form. *)
Lemma sci_same ints s1 s2 n1 m1 e1 n2 m2 e2 :
  forallb sci_cp s1 = true -> In 101 s1 -> py_float s1 = Some (FFin n1 m1 e1) -> float_is_int (FFin n1 m1 e1) = true -> 0 < m1 ->
  forallb sci_cp s2 = true -> In 101 s2 -> py_float s2 = Some (FFin n2 m2 e2) -> float_is_int (FFin n2 m2 e2) = true -> 0 < m2 ->
  format_e (FFin n1 m1 e1) = format_e (FFin n2 m2 e2) -> string_normalize ints s1 = string_normalize ints s2.
Proof.
  intros A1 B1 C1 D1 E1 A2 B2 C2 D2 E2 Hf.
  destruct (sci_normalize ints s1 n1 m1 e1 A1 B1 C1 D1 E1) as (d1 & l1 & x1 & H1 & F1 & _ & Hd1 & _ & Hl1 & _).
  destruct (sci_normalize ints s2 n2 m2 e2 A2 B2 C2 D2 E2) as (d2 & l2 & x2 & H2 & F2 & _ & Hd2 & _ & Hl2 & _).
  rewrite H1, H2. f_equal. rewrite <- !sci_replace by assumption. rewrite <- F1, <- F2, Hf. reflexivity.
Qed.
