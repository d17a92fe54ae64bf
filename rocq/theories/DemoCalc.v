(** The SymPy of DemoL2S.v with sums, products and the other binders, over the rationals.  Sums and products are the
    real ones; limits are values, derivatives difference quotients, integrals midpoint rules: this only serves examples. *)
From Coq Require Import String List NArith ZArith QArith Qcanon Bool Lia.
From Verif Require Import PyStr PyStrTheory Regex Normalize Monad L2S NumTheory L2SReject L2SValue L2SCalc DemoL2S.
Import ListNotations.
Local Close Scope Qc_scope. Local Close Scope Q_scope.

Fixpoint iterate (op : Qc -> Qc -> Qc) (unit : Qc) (f : Qc -> Qc) (start : Qc) (n : nat) : Qc :=
  match n with O => unit | S n' => op (f start) (iterate op unit f (Qcplus start (Q2Qc 1)) n') end.
(** number of indices from a to b *)
Definition steps (a b : Qc) : nat := Z.to_nat (Qnum (Qcminus b a) / Zpos (Qden (Qcminus b a)) + 1).
Definition mid (a b : Qc) : Qc := Qcdiv (Qcplus a b) (Q2Qc 2).
Definition QcCalc : calculus Qc.
Proof.
  refine {| arith_of := QcArith;
    bigsum := fun f a b => iterate Qcplus (Q2Qc 0) f a (steps a b);
    bigprod := fun f a b => iterate Qcmult (Q2Qc 1) f a (steps a b);
    limit := fun below f a => f (if below then Qcminus a (Q2Qc (1 # 1000)) else a);
    integral := fun f a b => Qcmult (Qcminus b a) (f (mid a b));
    primitive := fun f x => Qcmult x (f (mid (Q2Qc 0) x));
    deriv := fun f x => Qcminus (f (Qcplus x (Q2Qc 1))) (f x) |}.
  intro x. cbn [QcArith mul of_Q opp]. change (Q2Qc (-1)) with (Qcopp (Q2Qc 1)). change (Q2Qc 1) with (1%Qc). ring.
Defined.

(** the denotation, with bound variables *)
Definition binder (f : pystr) (args : list Qc) (rho : pystr -> Qc) (x : pystr) (body : Qc -> Qc) : option Qc :=
  match args with
  | [a; b] => if str_eqb f (u "Sum") then Some (bigsum QcCalc body a b)
              else if str_eqb f (u "Product") then Some (bigprod QcCalc body a b)
              else if str_eqb f (u "Integral") then Some (integral QcCalc body a b) else None
  | [a] => if str_eqb f (u "Limit-") then Some (limit QcCalc true body a)
           else if str_eqb f (u "Limit+") then Some (limit QcCalc false body a)
           else if str_eqb f (u "subs") then Some (body a) else None
  | [] => if str_eqb f (u "Integral") then Some (primitive QcCalc body (rho x))
          else if str_eqb f (u "Derivative") then Some (deriv QcCalc body (rho x)) else None
  | _ => None
  end.
Fixpoint value_of (e : ex) (rho : pystr -> Qc) : Qc :=
  match e with
  | EQ q => q | ES s => rho s | EI => Q2Qc 0 | EOo => Q2Qc 0 | EPi => Q2Qc 3 | EE => Q2Qc 2
  | EAdd l => (fix go l := match l with [] => Q2Qc 0 | x :: l' => Qcplus (value_of x rho) (go l') end) l
  | EMul l => (fix go l := match l with [] => Q2Qc 1 | x :: l' => Qcmult (value_of x rho) (go l') end) l
  | EPow a b => qc_power (value_of a rho) (value_of b rho)
  | EF f l =>
    let all := (fix go l := match l with [] => [] | x :: l' => value_of x rho :: go l' end) l in
    match l with
    | body :: ES x :: _ => match binder f (skipn 2 all) rho x (fun k => value_of body (update rho x k)) with
                           | Some q => q | None => qc_fn f all end
    | _ => qc_fn f all
    end
  | _ => Q2Qc 0
  end.
Definition den2 (rho : pystr -> Qc) (e : ex) : Qc := value_of e rho.
Lemma den2_add rho l : den2 rho (EAdd l) = sum QcArith (map (den2 rho) l).
Proof. unfold den2. cbn [value_of]. induction l as [|x l IH]; [reflexivity|].
  cbn [map sum fold_right]. unfold sum in IH. rewrite <- IH. reflexivity.
Qed.
Lemma den2_mul rho l : den2 rho (EMul l) = product QcArith (map (den2 rho) l).
Proof. unfold den2. cbn [value_of]. induction l as [|x l IH]; [reflexivity|].
  cbn [map product fold_right]. unfold product in IH. rewrite <- IH. reflexivity.
Qed.
Lemma fns2_free f : In f fns2 -> forall a b rho, value_of (EF f [a; b]) rho = qc_fn f [value_of a rho; value_of b rho].
Proof.
  intros H a b rho. cbn [value_of]. destruct b; try reflexivity.
  cbv [fns2 map In] in H. destruct H as [<-|[<-|[<-|[]]]]; reflexivity.
Qed.

Theorem ESympy_plain parse rho values : (forall x v, In (x, PSym v) values -> ex_is_matrix v = false) ->
  faithful QcArith ex (den2 rho) rho values (o_md5 _ (ESympy parse)) (ESympy parse).
Proof.
  intro HV. constructor; intros; try (split; [reflexivity|reflexivity]); try reflexivity.
  - exists (EQ (Q2Qc q)). split; [apply ex_number_value; assumption|]. split; [split; reflexivity|reflexivity].
  - destruct v; cbn in H0; try discriminate. destruct H as [_ <-]. eexists; split; [reflexivity|]. split; reflexivity.
  - eexists; split; [reflexivity|]. split; [reflexivity|]. apply den2_add.
  - destruct v as [| | | | | |[|x l]| | | | | | | |]; try discriminate H0. split; [apply den2_add|]. split; [apply all_scalars; exact H0|discriminate].
  - eexists; split; [reflexivity|]. split; [reflexivity|]. apply den2_mul.
  - destruct v as [| | | | | | |[|x l]| | | | | | |]; try discriminate H0. split; [apply den2_mul|]. split; [apply all_scalars; exact H0|discriminate].
  - destruct v; cbn in H0; try discriminate. destruct H as [_ <-]. eexists; split; [reflexivity|]. split; [split; reflexivity|reflexivity].
  - destruct H as [_ <-], H0 as [_ <-]. eexists; split; [reflexivity|]. split; reflexivity.
  - destruct H as [_ <-]. eexists; split; [reflexivity|]. split; [reflexivity|]. unfold den2. cbn [value_of].
    rewrite qc_power_minus_one. cbn [div QcArith of_Q]. unfold Qcdiv. change (Q2Qc 1) with (1%Qc). ring.
  - destruct H0 as [_ <-]. destruct (fns1_plain f H) as [H1 H2]. cbn [o_call ESympy]. rewrite plain_call by assumption.
    eexists; split; [reflexivity|]. split; reflexivity.
  - destruct H0 as [_ <-], H1 as [_ <-]. destruct (fns2_plain f H) as [H1 H2]. cbn [o_call ESympy]. rewrite plain_call by assumption.
    eexists; split; [reflexivity|]. split; [reflexivity|]. unfold den2. apply fns2_free, H.
  - destruct H as [_ <-]. eexists; split; [reflexivity|]. split; reflexivity.
  - eexists; split; [reflexivity|]. split; reflexivity.
  - destruct H as [_ <-]. eexists; split; [reflexivity|]. split.
    + destruct v; try discriminate. intro E. apply Qc_eq_bool_correct in E. exact E.
    + destruct v; try discriminate. intros _ E. cbn in E. subst q. vm_compute. reflexivity.
  - destruct H as [_ <-]. eexists; split; [reflexivity|].
    destruct v; try discriminate. intro E. cbn [den2 value_of of_Q QcArith]. apply negb_false_iff, Qc_eq_bool_correct in E. exact E.
  - eapply HV; eassumption.
Qed.
Lemma iterate_ext op e f g : (forall k, f k = g k) -> forall n a, iterate op e f a n = iterate op e g a n.
Proof. intros E n. induction n as [|n IH]; intro a; [reflexivity|]. cbn [iterate]. rewrite E, IH. reflexivity. Qed.
Theorem ESympy_calc parse values : (forall x v, In (x, PSym v) values -> ex_is_matrix v = false) ->
  faithful_calc QcCalc ex den2 values (o_md5 _ (ESympy parse)) (ESympy parse).
Proof.
  intro HV. constructor; intros.
  - apply ESympy_plain, HV.
  - eexists; split; [reflexivity|]. split; [reflexivity|]. destruct H0 as [_ <-], H1 as [_ <-].
    unfold den2. cbn [value_of o_symbol ESympy]. cbn [binder skipn]. change (str_eqb (u "Sum") (u "Sum")) with true. cbv iota.
    apply iterate_ext. intro k. apply (H k).
  - eexists; split; [reflexivity|]. split; [reflexivity|]. destruct H0 as [_ <-], H1 as [_ <-].
    apply (iterate_ext Qcmult). intro k. apply (H k).
  - eexists; split; [reflexivity|]. split; [reflexivity|]. destruct H0 as [_ <-]. apply (H _).
  - eexists; split; [reflexivity|]. split; [reflexivity|]. destruct H0 as [_ <-]. apply (H _).
  - eexists; split; [reflexivity|]. split; [reflexivity|]. destruct H0 as [_ <-], H1 as [_ <-].
    change (Qcmult (Qcminus (den2 rho q) (den2 rho p)) (den2 (update rho x (mid (den2 rho p) (den2 rho q))) v) = integral QcCalc f (den2 rho p) (den2 rho q)).
    destruct (H (mid (den2 rho p) (den2 rho q))) as [_ ->]. reflexivity.
  - eexists; split; [reflexivity|]. split; [reflexivity|]. destruct H as [_ <-], H0 as [_ <-]. reflexivity.
  - eexists; split; [reflexivity|]. split; [reflexivity|].
    change (Qcmult (rho x) (den2 (update rho x (mid (Q2Qc 0) (rho x))) v) = primitive QcCalc f (rho x)).
    destruct (H (mid (Q2Qc 0) (rho x))) as [_ ->]. reflexivity.
  - eexists; split; [reflexivity|]. split; [reflexivity|].
    change (Qcminus (den2 (update rho x (Qcplus (rho x) (Q2Qc 1))) v) (den2 (update rho x (rho x)) v) = deriv QcCalc f (rho x)).
    destruct (H (Qcplus (rho x) (Q2Qc 1))) as [_ ->]. destruct (H (rho x)) as [_ ->]. reflexivity.
  - eexists; split; [reflexivity|]. split; [reflexivity|]. destruct H0 as [_ <-]. apply (H _).
Qed.
