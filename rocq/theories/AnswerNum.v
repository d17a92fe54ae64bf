(** Numerals as answers. *)
From Coq Require Import String List NArith ZArith QArith Qabs Bool Lia.
From Verif Require Import PyStr PyStrTheory Float64 NumTheory FloatTheory FloatError Normalize NormNum DecNorm L2SValue Arith ArithParse LatexForm Answer Pipeline.
Import ListNotations.
Local Open Scope N_scope.

Definition int_expr (z : Z) : arith := if (z <? 0)%Z then Neg (Num (dec_N (Z.abs_N z))) else Num (dec_N (Z.abs_N z)).
Definition dec_expr (neg : bool) (ds fs : pystr) : arith := if neg then Neg (Dec ds fs) else Dec ds fs.
Lemma dec_N_numeral n : numeral (dec_N n).
Proof. destruct (dec_N_spec n) as (F & _ & N & _). split; assumption. Qed.
Lemma int_expr_text z : tight (int_expr z) = dec_Z z.
Proof. unfold int_expr. destruct z as [|p|p]; reflexivity. Qed.
Lemma int_expr_wf z : wf (int_expr z) /\ LatexForm.plain (int_expr z).
Proof. unfold int_expr. destruct (z <? 0)%Z; cbn; (split; [apply dec_N_numeral|exact I]). Qed.
Lemma dec_expr_text neg ds fs : tight (dec_expr neg ds fs) = dec_text neg ds fs.
Proof. destruct neg; reflexivity. Qed.
Lemma plain_strip s : forallb num_cp s = true -> strip s = s.
Proof.
  intro H. unfold strip. apply strip_by_id.
  - destruct s as [|c s]; [exact I|]. apply plain_no_space. cbn in H. apply andb_true_iff in H. apply H.
  - rewrite <- forallb_rev in H. destruct (rev s) as [|c t]; [exact I|]. apply plain_no_space. cbn in H. apply andb_true_iff in H. apply H.
Qed.
Lemma integer_answer ints z : (- 2 ^ 53 <= z <= 2 ^ 53)%Z -> ints (dec_Z z) = dec_Z z -> answer ints (dec_Z z) (int_expr z).
Proof.
  intros H I. destruct (int_expr_wf z) as [W P]. split; [exact W|]. split; [exact P|]. split; [apply plain_strip, plain_num_digits, dec_Z_plain|].
  rewrite (normalize_int ints z H), I, int_expr_text. reflexivity.
Qed.
Lemma decimal_answer ints neg ds fs : numeral ds -> numeral fs ->
  (forall z, 1 # 10000000 < Qabs (magnitude ds fs - qn z) - slack (magnitude ds fs))%Q -> answer ints (dec_text neg ds fs) (dec_expr neg ds fs).
Proof.
  intros F G H. split; [|split; [|split]].
  - destruct neg; split; assumption.
  - destruct neg; exact I.
  - apply plain_strip, plain_num_digits, dec_text_plain; assumption.
  - rewrite (decimal_kept ints neg ds fs F G H), dec_expr_text. reflexivity.
Qed.
(** A decimal within 1e-7 of an integer is an answer for that integer. *)
Lemma rounded_answer ints neg ds fs z : numeral ds -> numeral fs -> ints (dec_Z (signed neg z)) = dec_Z (signed neg z) ->
  (Qabs (magnitude ds fs - qn z) + slack (magnitude ds fs) <= 1 # 10000000)%Q -> answer ints (dec_text neg ds fs) (int_expr (signed neg z)).
Proof.
  intros F G I H. destruct (int_expr_wf (signed neg z)) as [W P]. split; [exact W|]. split; [exact P|].
  split; [apply plain_strip, plain_num_digits, dec_text_plain; assumption|].
  rewrite (decimal_rounded ints neg ds fs z F G H), I, int_expr_text. reflexivity.
Qed.
Section V.
Context {A : Type}.
Variable K : arithmetic A.
Variable rho : pystr -> A.
Hypothesis opp_Q : forall q, opp K (of_Q K q) = of_Q K (- q).
Lemma int_expr_value z : value K rho (int_expr z) = of_Q K (inject_Z z).
Proof.
  unfold int_expr. destruct (Z.ltb_spec z 0) as [L|L]; cbn [value]; unfold int_value; destruct (dec_N_spec (Z.abs_N z)) as (_ & -> & _).
  - rewrite opp_Q, N2Z.inj_abs_N. f_equal. unfold inject_Z, Qopp. cbn [Qnum Qden]. f_equal. lia.
  - rewrite N2Z.inj_abs_N, Z.abs_eq by exact L. reflexivity.
Qed.
End V.
