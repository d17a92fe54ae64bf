(** Assembly of the normaliser properties. *)
From Coq Require Import String List NArith ZArith QArith Bool Lia.
From Verif Require Import PyStr PyStrTheory NumTheory Regex Float64 FloatTheory Normalize Monad MonadTheory Split Eval Spec EvalTheory EvalTheory2.
From Verif Require Import NormTheory NormNum NormPct RegexFirst NormMixed NormSci NormTime.
Import ListNotations.
Local Open Scope N_scope.

Lemma integer_literal ints z : (- 2 ^ 53 <= z <= 2 ^ 53)%Z -> ints (dec_Z z) = dec_Z z ->
  string_normalize ints (dec_Z z) = NStr (dec_Z z).
Proof. intros H E. rewrite (normalize_int ints z H), E. reflexivity. Qed.

Lemma large_integers_conflated W n z st : (2 ^ 53 < Z.abs z < 2 ^ 1023)%Z -> Z.odd z = true ->
  exists z', z' <> z /\ is_equiv W (S n) (Some (dec_Z z)) (Some (dec_Z z')) st = (Ret true, st).
Proof.
  intros H O. destruct (conflated (int_str W) z H O) as (z' & Hne & E1 & E2). exists z'. split; [exact Hne|].
  apply (is_equiv_same_norm W n _ _ _ E1 E2).
Qed.
Lemma large_integer_witness W n st :
  is_equiv W (S n) (Some (u "9007199254740993")) (Some (u "9007199254740992")) st = (Ret true, st).
Proof.
  apply (is_equiv_same_norm W n _ _ (int_str W (u "9007199254740992"))); vm_compute; reflexivity.
Qed.

Lemma base_value_positional b ds : base_value b ds =
  fold_right N.add 0 (map (fun i => (nth i (rev ds) 48 - 48) * b ^ N.of_nat i) (seq 0 (length ds))).
Proof.
  unfold base_value. induction ds as [|d ds IH] using rev_ind; [reflexivity|].
  rewrite base_value_from_app, IH, app_length. cbn [length]. rewrite Nat.add_comm. cbn [seq map Nat.add].
  rewrite <- seq_shift, map_map, rev_app_distr. cbn [rev app nth fold_right].
  rewrite N.pow_0_r, N.mul_1_r, N.add_comm. f_equal.
  clear IH. generalize (seq 0 (length ds)). intro l. induction l as [|i l IH]; [reflexivity|].
  cbn [map fold_right nth]. rewrite N.mul_add_distr_r, IH. f_equal. rewrite Nat2N.inj_succ, N.pow_succ_r'. ring.
Qed.

Lemma mixed_slash ints neg A B C k :
  Forall ascii_digit A -> A <> [] -> Forall ascii_digit B -> B <> [] -> Forall ascii_digit C -> C <> [] -> k <> O ->
  exists out q, string_normalize ints (sign neg ++ A ++ spaces k ++ B ++ 47 :: C) = NStr out /\
    expr_value out = Some q /\ (q == signed neg (nat_value A) + nat_value B / nat_value C)%Q.
Proof.
  intros FA NA FB NB FC NC Hk. destruct (slash_value neg A B C k FA NA FB NB FC NC Hk) as (q & E & V).
  exists (slash_out neg A B C), q. split; [|split; assumption]. apply slash_normalize; assumption.
Qed.
Lemma mixed_frac ints neg A B C x y k :
  Forall ascii_digit A -> A <> [] -> frac_text B x -> frac_text C y ->
  exists out q, string_normalize ints (sign neg ++ A ++ spaces k ++ u "\frac" ++ x ++ y) = NStr out /\
    expr_value out = Some q /\ (q == signed neg (nat_value A) + nat_value B / nat_value C)%Q.
Proof.
  intros FA NA TB TC. destruct (frac_value neg A B C x y FA NA TB TC) as (q & E & V).
  exists (frac_out neg A x y), q. split; [|split; assumption]. apply (frac_normalize neg A B C x y k FA NA TB TC).
Qed.
Lemma nat_value_pos ds : 0 < dec_value ds -> ~ (nat_value ds == 0)%Q.
Proof. intros H E. unfold nat_value, Qeq in E. cbn in E. lia. Qed.
Lemma negative_mixed ints A B C k :
  Forall ascii_digit A -> A <> [] -> Forall ascii_digit B -> Forall ascii_digit C -> k <> O -> 0 < dec_value B -> 0 < dec_value C ->
  exists out q, string_normalize ints (45 :: A ++ spaces k ++ B ++ 47 :: C) = NStr out /\ expr_value out = Some q /\
    ~ (q == - (nat_value A + nat_value B / nat_value C))%Q.
Proof.
  intros FA NA FB FC Hk PB PC.
  destruct (mixed_slash ints true A B C k) as (out & q & H1 & H2 & H3); auto;
    try (intro E; subst; cbn in PB, PC; lia).
  exists out, q. split; [exact H1|split; [exact H2|]]. rewrite H3. apply negative_mixed_differs; apply nat_value_pos; assumption.
Qed.

(** ** Scientific notation *)
Lemma sci_equiv W n s1 s2 n1 m1 e1 n2 m2 e2 :
  forallb sci_cp s1 = true -> In 101 s1 -> py_float s1 = Some (FFin n1 m1 e1) -> float_is_int (FFin n1 m1 e1) = true -> 0 < m1 ->
  forallb sci_cp s2 = true -> In 101 s2 -> py_float s2 = Some (FFin n2 m2 e2) -> float_is_int (FFin n2 m2 e2) = true -> 0 < m2 ->
  format_e (FFin n1 m1 e1) = format_e (FFin n2 m2 e2) ->
  forall st, is_equiv W (S n) (Some s1) (Some s2) st = (Ret true, st).
Proof.
  intros A1 B1 C1 D1 E1 A2 B2 C2 D2 E2 Hf.
  destruct (sci_normalize (int_str W) s1 n1 m1 e1 A1 B1 C1 D1 E1) as (d1 & l1 & x1 & H1 & _).
  apply (is_equiv_same_norm W n s1 s2 _ H1). rewrite <- H1. symmetry.
  exact (sci_same (int_str W) s1 s2 n1 m1 e1 n2 m2 e2 A1 B1 C1 D1 E1 A2 B2 C2 D2 E2 Hf).
Qed.
Lemma sci_witness W n st : is_equiv W (S n) (Some (u "12345671e1")) (Some (u "12345672e1")) st = (Ret true, st).
Proof. apply (is_equiv_same_norm W n _ _ (u "1.234567*10^{+08}")); vm_compute; reflexivity. Qed.
