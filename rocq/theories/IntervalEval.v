(** The interval rule of is_equiv on written unions of intersections. *)
From Coq Require Import String List NArith ZArith QArith Bool Lia Permutation.
From Verif Require Import PyStr Monad MonadTheory Split Eval Interval IntervalTheory.
Import ListNotations.
Local Open Scope mon_scope.

(** A world whose interval reading is the model of [_str_to_interval]; everything else is arbitrary. *)
Definition with_intervals {St V S : Type} (IS : ISympy St V S) (cmp : S -> S -> M St bool)
  (ints : pystr -> pystr) (iter : list pystr -> list pystr) (iter_ok : forall l, Permutation (iter l) (nodup str_eq_dec l))
  (simpl : pystr -> pystr -> M St bool) (lhs : pystr -> M St unit) : World := {|
  Eval.St := St; int_str := ints; set_iter := iter; set_iter_ok := iter_ok;
  Iv := S; interval_body := interval_of IS; interval_compare := cmp; equal_with_simplify := simpl; parse_lhs := lhs |}.

Section E.
Context {St V S : Type}.
Variable IS : ISympy St V S.
Variable num : V -> ext -> Prop.
Variable set : S -> (Q -> Prop) -> Prop.
Variable cmp : S -> S -> M St bool.
Variable ints : pystr -> pystr.
Variable iter : list pystr -> list pystr.
Variable iter_ok : forall l, Permutation (iter l) (nodup str_eq_dec l).
Variable simpl : pystr -> pystr -> M St bool.
Variable lhs : pystr -> M St unit.
Notation W := (with_intervals IS cmp ints iter iter_ok simpl lhs).

(** A text and the set it denotes *)
Definition denotes (t : pystr) (P : Q -> Prop) : Prop :=
  exists cupsep capsep parts, t = whole cupsep capsep (map (map fst) parts) /\ cup_like cupsep /\ cap_like capsep /\ parts <> [] /\
    Forall (fun p => p <> [] /\ Forall ordinary p /\ Forall (fun v => ordered v /\ read IS num v) p /\ prefixes_meet_usually p) parts /\
    forall x, P x <-> Exists (fun p => Forall (fun i => usual i x) p) parts.
Lemma denotes_reads t P : faithful IS num set -> denotes t P -> exists r R, pure_to (str_to_interval W t) (Some r) /\ set r R /\ forall x, R x <-> P x.
Proof.
  intros F (cu & ca & parts & -> & Hu & Ha & Hne & Hp & HP). destruct (interval_usual IS num set F cu ca parts Hu Ha Hne Hp) as (r & R & Pr & Sr & HR).
  exists r, R. split; [|split; [exact Sr|intro x; rewrite HR, HP; tauto]].
  apply pure_try_bare. eapply pure_bind; [exact Pr|apply pure_ret].
Qed.
Theorem rule_verdict t1 P1 t2 P2 : faithful IS num set ->
  (forall s P t R, set s P -> set t R -> exists b, pure_to (cmp s t) b /\ (b = true <-> forall x, P x <-> R x)) ->
  denotes t1 P1 -> denotes t2 P2 ->
  exists b, pure_to (possible_intervals W t1 t2) (b, true) /\ (b = true <-> forall x, P1 x <-> P2 x).
Proof.
  intros F C D1 D2. destruct (denotes_reads t1 P1 F D1) as (r1 & R1 & Pr1 & S1 & H1). destruct (denotes_reads t2 P2 F D2) as (r2 & R2 & Pr2 & S2 & H2).
  destruct (C _ _ _ _ S1 S2) as (b & Pb & Hb). exists b. split.
  - unfold possible_intervals. eapply pure_bind; [exact Pr1|]. eapply pure_bind; [exact Pr2|]. cbn. eapply pure_bind; [exact Pb|apply pure_ret].
  - rewrite Hb. split; intros H x.
    + rewrite <- H1, <- H2. apply H.
    + rewrite H1, H2. apply H.
Qed.
(** A comparison that only ever identifies equal sets keeps the rule sound. *)
Theorem rule_sound t1 P1 t2 P2 st c : faithful IS num set ->
  (forall s P t R st, set s P -> set t R -> fst (cmp s t st) = Ret true -> forall x, P x <-> R x) ->
  denotes t1 P1 -> denotes t2 P2 -> fst (possible_intervals W t1 t2 st) = Ret (true, c) -> forall x, P1 x <-> P2 x.
Proof.
  intros F C D1 D2 H. destruct (denotes_reads t1 P1 F D1) as (r1 & R1 & Pr1 & S1 & H1). destruct (denotes_reads t2 P2 F D2) as (r2 & R2 & Pr2 & S2 & H2).
  unfold possible_intervals in H. apply bind_inv_fst in H. destruct H as (o1 & s1 & E1 & H). apply bind_inv_fst in H. destruct H as (o2 & s2 & E2 & H).
  specialize (Pr1 st). rewrite E1 in Pr1. injection Pr1 as ->. specialize (Pr2 s1). rewrite E2 in Pr2. injection Pr2 as ->.
  cbn in H. apply bind_inv_fst in H. destruct H as (b & s3 & E3 & H). injection H as -> _.
  intro x. rewrite <- H1, <- H2. apply (C r1 R1 r2 R2 s2 S1 S2). rewrite E3. reflexivity.
Qed.
End E.
