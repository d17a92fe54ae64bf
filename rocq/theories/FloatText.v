(** What [float] accepts among ASCII texts. *)
From Coq Require Import String List NArith ZArith Bool Lia Arith.
From Verif Require Import UnicodeTables PyStr PyStrTheory NumTheory Regex RegexTheory Float64 FloatTheory Normalize NormTheory NormNum NormPct.
Import ListNotations.
Local Open Scope N_scope.

Definition float_chars_list : pystr := u "0123456789+-.eE".
Definition simple_cp (c : N) : Prop := c < 128 /\ c <> 95.

Lemma digit_float_char c : is_ascii_digit c = true -> In c float_chars_list.
Proof.
  unfold is_ascii_digit. intro H. apply andb_true_iff in H. destruct H as [H1 H2]. apply N.leb_le in H1, H2.
  assert (E : c = 48 \/ c = 49 \/ c = 50 \/ c = 51 \/ c = 52 \/ c = 53 \/ c = 54 \/ c = 55 \/ c = 56 \/ c = 57) by lia.
  repeat destruct E as [->|E]; subst; cbn; tauto.
Qed.
Lemma digits_in d c : forallb is_ascii_digit d = true -> In c d -> is_ascii_digit c = true.
Proof. intros H Hc. rewrite forallb_forall in H. apply H, Hc. Qed.
Lemma case2 {A} (x : N) (t : pystr) (a b : pystr -> A) (d : A) :
  match x with 43 => a t | 45 => b t | _ => d end = if x =? 43 then a t else if x =? 45 then b t else d.
Proof. destruct x as [|p]; [reflexivity|]. do 6 (destruct p as [p|p|]; try reflexivity). Qed.
Lemma case1 {A} (x : N) (a d : A) : match x with 46 => a | _ => d end = if x =? 46 then a else d.
Proof. destruct x as [|p]; [reflexivity|]. do 6 (destruct p as [p|p|]; try reflexivity). Qed.

Lemma lower_app a b : lower (a ++ b) = lower a ++ lower b.
Proof. apply flat_map_app. Qed.
Lemma exponent_shape s e : parse_exponent s = Some e ->
  (forall c, In c s -> In c float_chars_list) /\ (s = [] \/ In 101 s \/ In 69 s).
Proof.
  intro H. destruct s as [|c s]; [split; [intros c []|left; reflexivity]|]. cbn [parse_exponent] in H.
  destruct ((c =? 101) || (c =? 69)) eqn:Ec; [|discriminate]. apply orb_true_iff in Ec. rewrite !N.eqb_eq in Ec.
  split; [|right; destruct Ec as [-> | ->]; [left|right]; left; reflexivity].
  assert (G : forall (neg : bool) s2, (let (d, r) := span_digits s2 in
      match d, r with
      | _ :: _, [] => Some (if neg then - Z.of_N (ascii_int d) else Z.of_N (ascii_int d))%Z
      | _, _ => None
      end) = Some e -> forall c, In c s2 -> In c float_chars_list).
  { intros neg s2 H2 c0 Hc. pose proof (span_digits_spec s2) as Sp. destruct (span_digits s2) as [d r]. destruct Sp as [-> Sd].
    destruct d; [discriminate|]. destruct r; [|discriminate]. rewrite app_nil_r in Hc. apply digit_float_char, (digits_in _ _ Sd Hc). }
  intros c0 [<-|Hc]; [destruct Ec as [-> | ->]; cbn; tauto|]. destruct s as [|x t]; [contradiction|].
  rename c into k, c0 into c. cbv beta iota in H. rewrite (@case2 (bool * list N) x t (fun t : list N => @pair bool (list N) false t) (fun t : list N => @pair bool (list N) true t) (@pair bool (list N) false (x :: t))) in H.
  destruct (N.eqb_spec x 43) as [->|N1]; [destruct Hc as [<-|Hc]; [cbn; tauto|exact (G false t H c Hc)]|].
  destruct (N.eqb_spec x 45) as [->|N2]; [destruct Hc as [<-|Hc]; [cbn; tauto|exact (G true t H c Hc)]|].
  exact (G false (x :: t) H c Hc).
Qed.
Lemma unsigned_shape neg s f : lower s <> u "inf" -> lower s <> u "infinity" -> lower s <> u "nan" ->
  parse_unsigned neg s = Some f ->
  (forall c, In c s -> In c float_chars_list) /\ (~ In 101 s -> ~ In 69 s -> ~ In 43 s /\ ~ In 45 s).
Proof.
  intros N1 N2 N3 H. unfold parse_unsigned in H.
  rewrite (proj2 (str_eqb_neq _ _) N1), (proj2 (str_eqb_neq _ _) N2), (proj2 (str_eqb_neq _ _) N3) in H. cbn [orb] in H.
  pose proof (span_digits_spec s) as Sp. destruct (span_digits s) as [i r]. destruct Sp as [-> Si].
  assert (G : forall w r2, (forall c, In c w -> is_ascii_digit c = true \/ c = 46) -> i ++ r = w ++ r2 -> (exists e, parse_exponent r2 = Some e) ->
    (forall c, In c (i ++ r) -> In c float_chars_list) /\ (~ In 101 (i ++ r) -> ~ In 69 (i ++ r) -> ~ In 43 (i ++ r) /\ ~ In 45 (i ++ r))).
  { intros w r2 Hw E [e He]. destruct (exponent_shape r2 e He) as [X1 X2].
    rewrite E. split.
    - intros c Hc. apply in_app_or in Hc. destruct Hc as [Hc|Hc]; [|auto]. destruct (Hw c Hc) as [D| ->]; [apply digit_float_char, D|cbn; tauto].
    - intros N101 N69. destruct X2 as [->|[X2|X2]]; [|exfalso; apply N101, in_or_app; right; exact X2|exfalso; apply N69, in_or_app; right; exact X2]. rewrite app_nil_r.
      split; intro Hc; destruct (Hw _ Hc) as [D|D]; discriminate. }
  assert (X : exists f' r2, (match r with 46 :: t => span_digits t | _ => ([], r) end) = (f', r2) /\
    (exists e, parse_exponent r2 = Some e)).
  { destruct (match r with 46 :: t => span_digits t | _ => ([], r) end) as [f' r2]. exists f', r2. split; [reflexivity|].
    destruct (i ++ f'); [discriminate|]. destruct (parse_exponent r2); [eauto|discriminate]. }
  destruct X as (f' & r2 & E & He). destruct r as [|x t].
  - injection E as <- <-. apply (G i []); auto. intros c Hc. left. eapply digits_in; eauto.
  - cbv beta iota in E. rewrite case1 in E. destruct (N.eqb_spec x 46) as [->|Nx].
    + pose proof (span_digits_spec t) as Sp. rewrite E in Sp. destruct Sp as [-> Sf]. apply (G (i ++ 46 :: f') r2); auto.
      * intros c Hc. apply in_app_or in Hc. destruct Hc as [Hc|[<-|Hc]]; [left; exact (digits_in _ _ Si Hc)|right; reflexivity|left; exact (digits_in _ _ Sf Hc)].
      * rewrite <- app_assoc. reflexivity.
    + injection E as <- <-. apply (G i (x :: t)); auto. intros c Hc. left. eapply digits_in; eauto.
Qed.
Lemma drop_underscores_none s : ~ In 95 s -> forall prev, prev <> 95 -> drop_underscores prev s = Some s.
Proof.
  induction s as [|c s IH]; intros H prev Hp; [cbn; destruct (N.eqb_spec prev 95); [contradiction|reflexivity]|]. cbn [drop_underscores].
  destruct (N.eqb_spec c 95) as [->|Hc]; [exfalso; apply H; left; reflexivity|].
  destruct (N.eqb_spec prev 95); [contradiction|]. cbn [andb]. rewrite IH; [reflexivity|intro Hi; apply H; right; exact Hi|exact Hc].
Qed.
Lemma map_ascii s : (forall c, In c s -> c < 128) -> map to_ascii s = s.
Proof.
  intro H. induction s as [|c s IH]; [reflexivity|]. cbn [map]. rewrite IH by (intros; apply H; right; assumption).
  unfold to_ascii. rewrite (proj2 (N.ltb_lt c 128)) by (apply H; left; reflexivity). reflexivity.
Qed.
Theorem float_shape s f : (forall c, In c s -> simple_cp c) -> strip s = s -> contains (u "inf") (lower s) = false -> contains (u "nan") (lower s) = false ->
  py_float s = Some f ->
  (forall c, In c s -> In c float_chars_list) /\ (~ In 101 s -> ~ In 69 s -> ~ In 43 (tl s) /\ ~ In 45 (tl s)).
Proof.
  intros Hs Hst Hi Hn H. unfold py_float in H. rewrite map_ascii in H by (intros c Hc; apply (Hs c Hc)). rewrite Hst in H.
  rewrite drop_underscores_none in H; [|intro X; destruct (Hs 95 X) as (_ & N); congruence|discriminate].
  destruct s as [|x t]; [vm_compute in H; discriminate|].
  assert (G : forall neg a b, x :: t = a ++ b -> parse_unsigned neg b = Some f -> (forall c, In c b -> In c float_chars_list) /\ (~ In 101 b -> ~ In 69 b -> ~ In 43 b /\ ~ In 45 b)).
  { intros neg a b E Hp. assert (Inf : forall p q, lower b = p ++ q -> contains p (lower (x :: t)) = true) by (intros p q Eb; apply contains_spec; exists (lower a), q; rewrite E, lower_app, Eb; reflexivity).
    apply (unsigned_shape neg b f); auto; intro X.
    - rewrite (Inf (u "inf") [] X) in Hi. discriminate.
    - rewrite (Inf (u "inf") (u "inity") X) in Hi. discriminate.
    - rewrite (Inf (u "nan") [] X) in Hn. discriminate. }
  cbv beta iota in H. rewrite (case2 x t (parse_unsigned false) (parse_unsigned true) (parse_unsigned false (x :: t))) in H. cbn [tl].
  destruct (N.eqb_spec x 43) as [->|N1]; [|destruct (N.eqb_spec x 45) as [->|N2]].
  - destruct (G false [43] t eq_refl H) as [G1 G2]. split; [intros c [<-|Hc]; [cbn; tauto|auto]|]. intros X X0. apply G2; intro Y; [apply X|apply X0]; right; exact Y.
  - destruct (G true [45] t eq_refl H) as [G1 G2]. split; [intros c [<-|Hc]; [cbn; tauto|auto]|]. intros X X0. apply G2; intro Y; [apply X|apply X0]; right; exact Y.
  - destruct (G false [] (x :: t) eq_refl H) as [G1 G2]. split; [exact G1|]. intros X X0. destruct (G2 X X0) as [Y1 Y2]. split; intro Y; [apply Y1|apply Y2]; right; exact Y.
Qed.
