(** Lemmas about the float model: reading integer literals. *)
From Coq Require Import String List NArith ZArith Bool Lia Arith.
From Verif Require Import PyStr PyStrTheory NumTheory Float64.
Import ListNotations.
Local Open Scope N_scope.

Lemma dec_value_cons c s : dec_value (c :: s) = (c - 48) * 10 ^ N.of_nat (length s) + dec_value s.
Proof. change (c :: s) with ([c] ++ s). rewrite dec_value_app. unfold dec_value at 1. cbn [rev app dec_value_rev]. f_equal. lia. Qed.
Lemma dec_value_bound s : Forall ascii_digit s -> dec_value s < 10 ^ N.of_nat (length s).
Proof.
  induction s as [|c s IH]; intro F; [reflexivity|]. inversion F as [|? ? Hc F']; subst. rewrite dec_value_cons. cbn [length].
  rewrite Nat2N.inj_succ, N.pow_succ_r'. specialize (IH F'). unfold ascii_digit in Hc. nia.
Qed.
Lemma dec_value_lower c s : ascii_digit c -> c <> 48 -> Forall ascii_digit s -> 10 ^ N.of_nat (length s) <= dec_value (c :: s).
Proof. intros H H' F. rewrite dec_value_cons. unfold ascii_digit in H. assert (1 <= c - 48) by lia. nia. Qed.
Lemma dec_N_length n k : n < 10 ^ N.of_nat k -> (0 < k)%nat -> (length (dec_N n) <= k)%nat.
Proof.
  intros H Hk. destruct (dec_N_spec n) as (F & V & Hne & Hz). destruct (dec_N n) as [|c s] eqn:E; [contradiction|].
  inversion F as [|? ? Hc Fs]; subst. destruct (N.eq_dec c 48) as [->|Hc'].
  - destruct (Hz eq_refl) as [_ E']. injection E' as ->. cbn. lia.
  - pose proof (dec_value_lower c s Hc Hc' Fs) as L.
    assert (N.of_nat (length s) < N.of_nat k).
    { apply (N.pow_lt_mono_r_iff 10); [lia|]. eapply N.le_lt_trans; eauto. }
    cbn. lia.
Qed.

Lemma round_half_even_exact q d : d <> 0 -> round_half_even (q * d) d = q.
Proof.
  intro H. unfold round_half_even. rewrite N.mod_mul, N.div_mul by exact H. cbn [N.mul].
  destruct d; [contradiction|]. reflexivity.
Qed.
Lemma pow2_pos k : 2 ^ k <> 0.
Proof. apply N.pow_nonzero. discriminate. Qed.

(** Integers up to 2^53 are represented exactly. *)
Lemma round_ratio_small D : 0 < D -> D < 2 ^ 53 ->
  round_ratio D 1 = Some (D * 2 ^ (52 - N.log2 D), (- Z.of_N (52 - N.log2 D))%Z).
Proof.
  intros H0 H1. pose proof (N.log2_spec D H0) as [L1 L2].
  assert (Hl : N.log2 D <= 52). { apply N.lt_succ_r. apply N.log2_lt_pow2; [exact H0|]. exact H1. }
  unfold round_ratio. destruct (N.eqb_spec D 0) as [->|_]; [lia|].
  change (N.log2 1) with 0.
  replace (Z.of_N (N.log2 D) - Z.of_N 0 - 52)%Z with (- Z.of_N (52 - N.log2 D))%Z by lia.
  set (k := 52 - N.log2 D) in *.
  assert (Hs : exists b, scale2 D 1 (- Z.of_N k) = (D * 2 ^ k, b) /\ b = 1).
  { unfold scale2. destruct (Z.leb_spec 0 (- Z.of_N k)) as [Hk|Hk].
    - assert (k = 0) as -> by lia. exists 1. split; [|reflexivity]. change (2 ^ 0) with 1. cbn [Z.of_N Z.opp Z.to_N]. rewrite !N.mul_1_r. reflexivity.
    - exists 1. split; [|reflexivity]. rewrite Z.opp_involutive, N2Z.id. reflexivity. }
  destruct Hs as (b & -> & ->). cbn [fst snd].
  assert (B : 2 ^ 52 <= D * 2 ^ k).
  { replace (2 ^ 52) with (2 ^ N.log2 D * 2 ^ k) by (rewrite <- N.pow_add_r; f_equal; lia). apply N.mul_le_mono_r. exact L1. }
  assert (B2 : D * 2 ^ k < 2 ^ 53).
  { replace (2 ^ 53) with (2 ^ N.succ (N.log2 D) * 2 ^ k) by (rewrite <- N.pow_add_r; f_equal; lia).
    apply N.mul_lt_mono_pos_r; [|exact L2]. pose proof (pow2_pos k). lia. }
  rewrite N.div_1_r. destruct (N.ltb_spec (D * 2 ^ k) (2 ^ 52)) as [Hx|_]; [lia|].
  rewrite Z.max_l by lia.
  assert (Hs : scale2 D 1 (- Z.of_N k) = (D * 2 ^ k, 1)).
  { unfold scale2. destruct (Z.leb_spec 0 (- Z.of_N k)) as [Hk|Hk].
    - assert (k = 0) as -> by lia. change (2 ^ 0) with 1. cbn [Z.of_N Z.opp Z.to_N]. rewrite !N.mul_1_r. reflexivity.
    - rewrite Z.opp_involutive, N2Z.id. reflexivity. }
  rewrite Hs. assert (R : round_half_even (D * 2 ^ k) 1 = D * 2 ^ k).
  { rewrite <- (N.mul_1_r (D * 2 ^ k)) at 1. apply round_half_even_exact. discriminate. }
  rewrite R. destruct (N.eqb_spec (D * 2 ^ k) (2 ^ 53)) as [Hx|_]; [lia|].
  destruct (Z.ltb_spec 971 (- Z.of_N k)) as [Hx|_]; [lia|]. reflexivity.
Qed.

Lemma exact_int neg D k :
  fin_round (D * 2 ^ k) (- Z.of_N k) = D /\ float_is_int (FFin neg (D * 2 ^ k) (- Z.of_N k)) = true.
Proof.
  unfold fin_round, float_is_int, ratio_of, scale2. rewrite Z.opp_involutive.
  destruct (Z.leb_spec 0 (Z.of_N k)) as [_|Hx]; [|lia]. rewrite N2Z.id, N.mul_1_l.
  rewrite round_half_even_exact by apply pow2_pos. split; [reflexivity|].
  rewrite N.leb_refl, N.sub_diag, N.mul_0_l. apply N.leb_le, N.le_0_l.
Qed.

Lemma float_of_nat neg D : D <= 2 ^ 53 ->
  exists m e, float_of_dec neg D 0 = FFin neg m e /\ fin_round m e = D /\ float_is_int (FFin neg m e) = true.
Proof.
  intro H. unfold float_of_dec. destruct (N.eqb_spec D 0) as [->|H0].
  { exists 0, 0%Z. split; [reflexivity|]. split; [reflexivity|]. destruct neg; reflexivity. }
  assert (L : (length (dec_N D) <= 16)%nat).
  { apply dec_N_length; [|lia]. eapply N.le_lt_trans; [exact H|]. reflexivity. }
  rewrite Z.add_0_r. destruct (Z.ltb_spec 310 (Z.of_nat (length (dec_N D)))) as [Hx|_]; [lia|].
  destruct (Z.ltb_spec (Z.of_nat (length (dec_N D))) (-330)) as [Hx|_]; [lia|].
  change (0 <=? 0)%Z with true. cbv iota. change (10 ^ Z.to_N 0) with 1. rewrite N.mul_1_r.
  destruct (N.eq_dec D (2 ^ 53)) as [->|Hne].
  - exists (2 ^ 52), 1%Z. split; [vm_compute; reflexivity|]. split; [vm_compute; reflexivity|]. destruct neg; vm_compute; reflexivity.
  - unfold mk_float. rewrite round_ratio_small by lia.
    exists (D * 2 ^ (52 - N.log2 D)), (- Z.of_N (52 - N.log2 D))%Z. split; [reflexivity|].
    apply exact_int.
Qed.

(** Reading *)
Lemma ascii_int_value s : ascii_int s = fold_left (fun acc c => acc * 10 + (c - 48)) s 0.
Proof. reflexivity. Qed.
Lemma ascii_int_dec s : ascii_int s = dec_value s.
Proof.
  unfold ascii_int. induction s as [|c s IH] using rev_ind; [reflexivity|].
  rewrite fold_left_app. cbn [fold_left]. rewrite IH, dec_value_snoc. lia.
Qed.
Lemma ascii_digit_b c : ascii_digit c <-> is_ascii_digit c = true.
Proof. unfold ascii_digit, is_ascii_digit. rewrite andb_true_iff, !N.leb_le. reflexivity. Qed.

Lemma span_digits_app ds r : Forall ascii_digit ds -> match r with [] => True | c :: _ => is_ascii_digit c = false end ->
  span_digits (ds ++ r) = (ds, r).
Proof.
  intros F Hr. induction F as [|c ds Hc F IH]; cbn [app span_digits].
  - destruct r as [|c r]; [reflexivity|]. cbn [span_digits]. rewrite Hr. reflexivity.
  - apply ascii_digit_b in Hc. rewrite Hc, IH. reflexivity.
Qed.

(** Characters on which the first steps of [float()] act trivially *)
Definition plain_cp (c : N) : bool := (c <? 128) && negb (is_space c) && negb (c =? 95).
Lemma map_to_ascii s : forallb (fun c => c <? 128) s = true -> map to_ascii s = s.
Proof.
  intro H. rewrite forallb_forall in H. rewrite <- (map_id s) at 2. apply map_ext_in. intros c Hc. unfold to_ascii.
  rewrite (H c Hc). reflexivity.
Qed.
Lemma drop_underscores_id s : forall prev, prev <> 95 -> ~ In 95 s -> drop_underscores prev s = Some s.
Proof.
  induction s as [|c s IH]; intros prev Hp H; cbn [drop_underscores].
  - destruct (N.eqb_spec prev 95); [contradiction|reflexivity].
  - destruct (N.eqb_spec c 95) as [->|Hc]; [destruct H; left; reflexivity|].
    destruct (N.eqb_spec prev 95); [contradiction|]. cbn [andb].
    rewrite IH; [reflexivity|exact Hc|]. intro Hin. apply H. right; exact Hin.
Qed.
(** [float(s)] when only the ends could be spaces and neither is *)
Definition read_signed (t : pystr) : option pyfloat :=
  match t with
  | 43 :: t' => parse_unsigned false t'
  | 45 :: t' => parse_unsigned true t'
  | _ => parse_unsigned false t
  end.
Lemma py_float_ends s : forallb (fun c => c <? 128) s = true -> ~ In 95 s ->
  (match s with [] => True | c :: _ => is_space c = false end) ->
  (match rev s with [] => True | c :: _ => is_space c = false end) ->
  py_float s = read_signed s.
Proof.
  intros H1 H2 H3 H4. unfold py_float. rewrite map_to_ascii by exact H1. unfold strip.
  rewrite strip_by_id by assumption. rewrite drop_underscores_id; [reflexivity|discriminate|exact H2].
Qed.
Lemma lower_digit c : ascii_digit c -> lower_cp c = [c].
Proof. intro H. ten c H; vm_compute; reflexivity. Qed.
Lemma lower_not c s x t : lower_cp c = [c] -> c <> x -> str_eqb (lower (c :: s)) (x :: t) = false.
Proof. intros H Hx. unfold lower. cbn [flat_map]. rewrite H. cbn [app str_eqb]. apply N.eqb_neq in Hx. rewrite Hx. reflexivity. Qed.
(** A number followed by something that is not part of a number is no float. *)
Definition ends_number (r : pystr) : Prop :=
  match r with [] => True | c :: _ => is_ascii_digit c = false /\ c <> 46 /\ c <> 101 /\ c <> 69 end.
Lemma parse_unsigned_int neg c ds : ascii_digit c -> Forall ascii_digit ds ->
  parse_unsigned neg (c :: ds) = Some (float_of_dec neg (dec_value (c :: ds)) 0).
Proof.
  intros Hc F. unfold parse_unsigned. pose proof (lower_digit c Hc) as Hl.
  assert (c <> 105 /\ c <> 110) as [N1 N2] by (unfold ascii_digit in Hc; lia).
  change (u "inf") with (105 :: u "nf"). change (u "infinity") with (105 :: u "nfinity"). change (u "nan") with (110 :: u "an").
  rewrite !lower_not by assumption. cbn [orb].
  assert (F' : Forall ascii_digit (c :: ds)) by (constructor; assumption).
  rewrite <- (app_nil_r (c :: ds)) at 1. rewrite span_digits_app by (exact F' || exact I).
  cbv beta iota. rewrite app_nil_r. cbn [parse_exponent length Z.of_nat]. change (0 - 0)%Z with 0%Z. rewrite ascii_int_dec. reflexivity.
Qed.
Lemma parse_unsigned_junk neg c ds r : ascii_digit c -> Forall ascii_digit ds -> r <> [] -> ends_number r ->
  parse_unsigned neg (c :: ds ++ r) = None.
Proof.
  intros Hc F Hr He. unfold parse_unsigned. pose proof (lower_digit c Hc) as Hl.
  assert (c <> 105 /\ c <> 110) as [N1 N2] by (unfold ascii_digit in Hc; lia).
  change (u "inf") with (105 :: u "nf"). change (u "infinity") with (105 :: u "nfinity"). change (u "nan") with (110 :: u "an").
  rewrite !lower_not by assumption. cbn [orb].
  assert (F' : Forall ascii_digit (c :: ds)) by (constructor; assumption).
  destruct r as [|x r]; [contradiction|]. destruct He as (E1 & E2 & E3 & E4).
  change (c :: ds ++ x :: r) with ((c :: ds) ++ x :: r). rewrite span_digits_app by (exact F' || exact E1).
  assert (G : forall q : pystr * pystr, q = ([], x :: r) -> (let '(f, r2) := q in
    match (c :: ds) ++ f with [] => None | ds0 => match parse_exponent r2 with
      | Some e => Some (float_of_dec neg (ascii_int ds0) (e - Z.of_nat (length f))) | None => None end end) = None).
  { intros q ->. cbn [app parse_exponent]. apply N.eqb_neq in E3, E4. rewrite E3, E4. reflexivity. }
  cbv beta iota. apply G. destruct x as [|p]; [reflexivity|]. do 6 (destruct p as [p|p|]; try reflexivity). contradiction.
Qed.
Lemma read_signed_digit c s : ascii_digit c -> read_signed (c :: s) = parse_unsigned false (c :: s).
Proof. intro H. ten c H; reflexivity. Qed.

(** Integers beyond 2^53 *)
Lemma round_ratio_big D : 2 ^ 53 <= D -> D < 2 ^ 1023 ->
  exists m e, round_ratio D 1 = Some (m, Z.of_N e) /\ 1 <= e <= 971 /\ 2 ^ 52 <= m < 2 ^ 53.
Proof.
  intros H1 H2. pose proof (N.log2_spec D ltac:(lia)) as [L1 L2].
  assert (Hl : 53 <= N.log2 D) by (apply N.log2_le_pow2; lia).
  assert (Hu : N.log2 D <= 1022). { apply N.lt_succ_r. apply N.log2_lt_pow2; [lia|exact H2]. }
  unfold round_ratio. destruct (N.eqb_spec D 0) as [->|_]; [lia|]. change (N.log2 1) with 0.
  set (k := N.log2 D - 52). replace (Z.of_N (N.log2 D) - Z.of_N 0 - 52)%Z with (Z.of_N k) by lia.
  assert (Hs : scale2 D 1 (Z.of_N k) = (D, 2 ^ k)).
  { unfold scale2. destruct (Z.leb_spec 0 (Z.of_N k)); [|lia]. rewrite N2Z.id, N.mul_1_l. reflexivity. }
  rewrite Hs. pose proof (pow2_pos k) as Hp.
  assert (B : 2 ^ 52 <= D / 2 ^ k).
  { apply N.div_le_lower_bound; [exact Hp|]. rewrite <- N.pow_add_r. replace (k + 52) with (N.log2 D) by lia. exact L1. }
  assert (B2 : D / 2 ^ k < 2 ^ 53).
  { apply N.div_lt_upper_bound; [exact Hp|]. rewrite <- N.pow_add_r. replace (k + 53) with (N.succ (N.log2 D)) by lia. exact L2. }
  destruct (N.ltb_spec (D / 2 ^ k) (2 ^ 52)) as [Hx|_]; [lia|]. rewrite Z.max_l by lia. rewrite Hs.
  assert (R : D / 2 ^ k <= round_half_even D (2 ^ k) <= D / 2 ^ k + 1).
  { unfold round_half_even. destruct (2 * (D mod 2 ^ k) ?= 2 ^ k); [destruct (is_even _)| |]; lia. }
  set (m := round_half_even D (2 ^ k)) in *. clearbody m.
  destruct (N.eqb_spec m (2 ^ 53)) as [E|E].
  - destruct (Z.ltb_spec 971 (Z.of_N k + 1)) as [Hx|_]; [lia|].
    exists (2 ^ 52), (k + 1). rewrite N2Z.inj_add. split; [reflexivity|]. split; [lia|]. split; [lia|reflexivity].
  - destruct (Z.ltb_spec 971 (Z.of_N k)) as [Hx|_]; [lia|].
    exists m, k. split; [reflexivity|]. split; lia.
Qed.
Lemma round_ratio_fix m e : 2 ^ 52 <= m < 2 ^ 53 -> 1 <= e <= 971 -> round_ratio (m * 2 ^ e) 1 = Some (m, Z.of_N e).
Proof.
  intros [H1 H2] He. pose proof (pow2_pos e) as Hp.
  assert (L : N.log2 (m * 2 ^ e) = 52 + e).
  { apply N.log2_unique; [lia|]. rewrite N.pow_succ_r', N.pow_add_r. change (2 ^ 53) with (2 * 2 ^ 52) in H2. nia. }
  unfold round_ratio. destruct (N.eqb_spec (m * 2 ^ e) 0) as [E|_]; [nia|]. change (N.log2 1) with 0. rewrite L.
  replace (Z.of_N (52 + e) - Z.of_N 0 - 52)%Z with (Z.of_N e) by lia.
  assert (Hs : scale2 (m * 2 ^ e) 1 (Z.of_N e) = (m * 2 ^ e, 2 ^ e)).
  { unfold scale2. destruct (Z.leb_spec 0 (Z.of_N e)); [|lia]. rewrite N2Z.id, N.mul_1_l. reflexivity. }
  rewrite Hs, N.div_mul by exact Hp. destruct (N.ltb_spec m (2 ^ 52)) as [Hx|_]; [lia|]. rewrite Z.max_l by lia. rewrite Hs.
  rewrite round_half_even_exact by exact Hp. destruct (N.eqb_spec m (2 ^ 53)) as [Hx|_]; [lia|].
  destruct (Z.ltb_spec 971 (Z.of_N e)) as [Hx|_]; [lia|]. reflexivity.
Qed.
Lemma float_of_dec_big neg D : 0 < D -> D < 2 ^ 1024 -> float_of_dec neg D 0 = mk_float neg D 1.
Proof.
  intros H0 H. unfold float_of_dec. destruct (N.eqb_spec D 0) as [->|_]; [lia|].
  assert (L : (length (dec_N D) <= 309)%nat).
  { apply dec_N_length; [|apply Nat.ltb_lt; reflexivity]. eapply N.lt_le_trans; [exact H|]. apply N.leb_le. vm_compute. reflexivity. }
  rewrite Z.add_0_r. destruct (Z.ltb_spec 310 (Z.of_nat (length (dec_N D)))) as [Hx|_]; [lia|].
  destruct (Z.ltb_spec (Z.of_nat (length (dec_N D))) (-330)) as [Hx|_]; [lia|].
  change (0 <=? 0)%Z with true. cbv iota. change (10 ^ Z.to_N 0) with 1. rewrite N.mul_1_r. reflexivity.
Qed.
Lemma big_int neg m e : fin_round m (Z.of_N e) = m * 2 ^ e /\ float_is_int (FFin neg m (Z.of_N e)) = true.
Proof.
  unfold fin_round, float_is_int, ratio_of, scale2. destruct (Z.leb_spec 0 (- Z.of_N e)) as [H|H].
  - assert (e = 0) as -> by lia. change (2 ^ Z.to_N (- Z.of_N 0)) with 1. change (2 ^ 0) with 1. rewrite !N.mul_1_r.
    assert (R : round_half_even m 1 = m) by (rewrite <- (N.mul_1_r m) at 1; apply round_half_even_exact; discriminate).
    rewrite R. split; [reflexivity|]. rewrite N.leb_refl, N.sub_diag. apply N.leb_le. apply N.le_0_l.
  - rewrite Z.opp_involutive, N2Z.id. set (x := m * 2 ^ e).
    assert (R : round_half_even x 1 = x) by (rewrite <- (N.mul_1_r x) at 1; apply round_half_even_exact; discriminate).
    rewrite R. split; [reflexivity|]. rewrite N.mul_1_r, N.leb_refl, N.sub_diag. apply N.leb_le. apply N.le_0_l.
Qed.
