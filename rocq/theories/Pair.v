(** Two values at once: arithmetic on pairs. *)
From Coq Require Import String List NArith QArith Bool.
From Verif Require Import PyStr L2SValue Arith.
Import ListNotations.
Local Close Scope Q_scope.

Section Pair.
Context {A B : Type}.
Variable K1 : arithmetic A.
Variable K2 : arithmetic B.
Definition pair_arith : arithmetic (A * B).
Proof.
  refine {| of_Q := fun q => (of_Q K1 q, of_Q K2 q);
            add := fun x y => (add K1 (fst x) (fst y), add K2 (snd x) (snd y)); mul := fun x y => (mul K1 (fst x) (fst y), mul K2 (snd x) (snd y));
            opp := fun x => (opp K1 (fst x), opp K2 (snd x)); sub := fun x y => (sub K1 (fst x) (fst y), sub K2 (snd x) (snd y));
            div := fun x y => (div K1 (fst x) (fst y), div K2 (snd x) (snd y)); power := fun x y => (power K1 (fst x) (fst y), power K2 (snd x) (snd y));
            fn := fun f l => (fn K1 f (map fst l), fn K2 f (map snd l));
            const_I := (const_I K1, const_I K2); const_oo := (const_oo K1, const_oo K2); const_pi := (const_pi K1, const_pi K2); const_E := (const_E K1, const_E K2) |};
    intros; cbn [fst snd].
  - f_equal; apply add_assoc.
  - rewrite !add_0_l. symmetry; apply surjective_pairing.
  - rewrite !add_0_r. symmetry; apply surjective_pairing.
  - f_equal; apply mul_assoc.
  - rewrite !mul_1_l. symmetry; apply surjective_pairing.
  - rewrite !mul_1_r. symmetry; apply surjective_pairing.
  - f_equal; apply sub_opp.
  - f_equal; apply opp_mul.
  - f_equal; apply div_power.
Defined.
Lemma sum_pair {V} (den1 : V -> A) (den2 : V -> B) l : sum pair_arith (map (fun v => (den1 v, den2 v)) l) = (sum K1 (map den1 l), sum K2 (map den2 l)).
Proof. induction l as [|v l IH]; [reflexivity|]. unfold sum in *. cbn [map fold_right]. rewrite IH. reflexivity. Qed.
Lemma product_pair {V} (den1 : V -> A) (den2 : V -> B) l : product pair_arith (map (fun v => (den1 v, den2 v)) l) = (product K1 (map den1 l), product K2 (map den2 l)).
Proof. induction l as [|v l IH]; [reflexivity|]. unfold product in *. cbn [map fold_right]. rewrite IH. reflexivity. Qed.
Lemma value_pair r1 r2 e : value pair_arith (fun x => (r1 x, r2 x)) e = (value K1 r1 e, value K2 r2 e).
Proof.
  induction e; cbn [value]; try reflexivity; rewrite ?IHe, ?IHe1, ?IHe2; try reflexivity.
  - destruct o; reflexivity.
  - unfold fn_value. repeat match goal with |- context [if ?b then _ else _] => destruct b; [reflexivity|] end.
    destruct (find _ _) as [[? ?]|]; reflexivity.
Qed.
End Pair.


(** ** Which symbols occur *)
Definition OrArith : arithmetic bool.
Proof.
  refine {| of_Q := fun _ => false; add := orb; mul := orb; opp := fun b => b; sub := orb; div := orb; power := orb; fn := fun _ l => existsb (fun b => b) l;
            const_I := false; const_oo := false; const_pi := false; const_E := false |}; intros; try reflexivity; try (destruct x; reflexivity).
  destruct x, y; reflexivity.
Defined.
(** the symbol of name [x] occurs in [e] *)
Fixpoint occurs (x : pystr) (e : arith) : bool :=
  match e with
  | Num _ | Dec _ _ | Pct _ | Pi => false
  | Sym y => str_eqb (sym_name y) x
  | Bin _ a b | Pow a b | Frac a b | Binom a b | Root a b | Juxt a b => occurs x a || occurs x b
  | Neg a | Scale _ a | Fact a | Exp a | Sqrt a | Abs a | Floor a | Ceil a | Fn _ a | Group a => occurs x a
  end.
Lemma value_occurs x e : value OrArith (fun y => str_eqb y x) e = occurs x e.
Proof.
  induction e; cbn [value occurs OrArith add sub mul div power opp fn const_pi of_Q existsb int_value]; rewrite ?IHe, ?IHe1, ?IHe2, ?orb_false_r; try reflexivity.
  - destruct o; cbn; rewrite ?orb_false_r; reflexivity.
  - apply orb_comm.
  - unfold fn_value. repeat match goal with |- context [if ?b then _ else _] => destruct b; [cbn; rewrite ?IHe, ?orb_false_r; reflexivity|] end.
    destruct (find _ _) as [[? ?]|]; cbn; rewrite ?IHe, ?orb_false_r; reflexivity.
Qed.
