(** Decimal printing and reading of natural numbers. *)
From Coq Require Import List NArith ZArith Bool Lia Arith.
From Verif Require Import PyStr.
Import ListNotations.
Local Open Scope N_scope.

(** Value of a string of ASCII digits. *)
Fixpoint dec_value_rev (s : list N) : N :=
  match s with [] => 0 | c :: s' => (c - 48) + 10 * dec_value_rev s' end.
Definition dec_value (s : list N) : N := dec_value_rev (rev s).
Definition ascii_digit (c : N) : Prop := 48 <= c <= 57.

Lemma dec_value_snoc s c : dec_value (s ++ [c]) = 10 * dec_value s + (c - 48).
Proof. unfold dec_value. rewrite rev_app_distr. cbn [rev app dec_value_rev]. lia. Qed.
Lemma dec_value_app s t : dec_value (s ++ t) = dec_value s * 10 ^ N.of_nat (length t) + dec_value t.
Proof.
  revert s; induction t as [|c t IH] using rev_ind; intro s.
  - rewrite app_nil_r. change (dec_value []) with 0. cbn [length N.of_nat]. rewrite N.pow_0_r. lia.
  - rewrite app_assoc, dec_value_snoc, IH, dec_value_snoc, app_length. cbn [length].
    rewrite Nat.add_comm, Nat2N.inj_succ, N.pow_succ_r'. lia.
Qed.

Lemma digits_go_spec f : forall n acc, n < 2 ^ N.of_nat f -> f <> O ->
  exists ds, digits_go f n acc = ds ++ acc /\ Forall ascii_digit ds /\ dec_value ds = n /\ ds <> [] /\
    (hd 0 ds = 48 -> n = 0 /\ ds = [48]).
Proof.
  induction f as [|f IH]; intros n acc Hn Hf; [contradiction|]. cbn [digits_go].
  destruct (N.ltb_spec n 10) as [H|H].
  - exists [48 + n]. split; [reflexivity|]. split; [constructor; [unfold ascii_digit; lia|constructor]|].
    split; [unfold dec_value; cbn [rev app dec_value_rev]; lia|]. split; [discriminate|]. cbn [hd]. intro E.
    assert (n = 0) by lia. subst. auto.
  - rewrite Nat2N.inj_succ, N.pow_succ_r' in Hn.
    pose proof (N.div_mod n 10 ltac:(lia)) as Hdm. pose proof (N.mod_lt n 10 ltac:(lia)) as Hm.
    set (q := n / 10) in *. set (r := n mod 10) in *. clearbody r.
    destruct (IH q ((48 + r) :: acc)) as (ds & E & Hd & Hv & Hne & Hz).
    + unfold q. apply N.div_lt_upper_bound; lia.
    + destruct f; [|discriminate]. cbn in Hn. lia.
    + exists (ds ++ [48 + r]). rewrite <- app_assoc. split; [exact E|]. split; [|split; [|split]].
      * apply Forall_app. split; [exact Hd|]. constructor; [unfold ascii_digit; lia|constructor].
      * rewrite dec_value_snoc, Hv. lia.
      * intro E'. destruct ds; discriminate.
      * destruct ds as [|c ds]; [contradiction|]. cbn [app hd] in *. intro E'. destruct (Hz E') as [H0 _].
        exfalso. lia.
Qed.
Lemma size_nat_gt n : n < 2 ^ N.of_nat (N.size_nat n).
Proof.
  destruct n as [|p]; [reflexivity|]. cbn [N.size_nat]. induction p as [p IH|p IH|]; cbn [Pos.size_nat]; try reflexivity;
    rewrite Nat2N.inj_succ, N.pow_succ_r'; lia.
Qed.
Lemma dec_N_spec n : Forall ascii_digit (dec_N n) /\ dec_value (dec_N n) = n /\ dec_N n <> [] /\
  (hd 0 (dec_N n) = 48 -> n = 0 /\ dec_N n = [48]).
Proof.
  unfold dec_N. destruct (digits_go_spec (S (N.size_nat n)) n []) as (ds & E & H); [|discriminate|].
  - pose proof (size_nat_gt n). rewrite Nat2N.inj_succ, N.pow_succ_r'. lia.
  - rewrite E, app_nil_r. exact H.
Qed.

Lemma in_ascii_digits c : ascii_digit c -> In c [48;49;50;51;52;53;54;55;56;57].
Proof.
  unfold ascii_digit. intro H. cbn. lia.
Qed.
(** A fact about all ten digits, by cases. *)
Ltac ten c H := apply in_ascii_digits in H; cbn in H;
  repeat (destruct H as [H|H]; [subst c|]); [..|contradiction].
Lemma ascii_is_digit c : ascii_digit c -> is_digit c = true.
Proof. intro H. ten c H; reflexivity. Qed.
Lemma ascii_digit_value c : ascii_digit c -> digit_value c = c - 48.
Proof. intro H. ten c H; reflexivity. Qed.

Lemma int_of_digits_value s : Forall ascii_digit s -> int_of_digits s = dec_value s.
Proof.
  unfold int_of_digits. induction s as [|c s IH] using rev_ind; intro F; [reflexivity|].
  apply Forall_app in F. destruct F as [F Fc]. inversion Fc; subst.
  rewrite fold_left_app. cbn [fold_left]. rewrite IH by exact F. rewrite dec_value_snoc, ascii_digit_value by assumption. lia.
Qed.
