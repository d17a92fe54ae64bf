(** The numeric tolerance and the random test of latex_parser.py. *)
From Coq Require Import String List NArith ZArith QArith Qabs Bool Lia Lqa.
From Verif Require Import PyStr Monad MonadTheory Parser ParserTheory.
Import ListNotations.
Local Open Scope mon_scope.
Local Open Scope nat_scope.

Section N.
Context {St Ex Ob Sym Num : Type}.
Variable SP : Sympy St Ex Ob Sym Num.
Notation val := (pyval Ex Ob).

(** ** The tolerance *)
Definition threshold (t : thr) : Q := match t with Eps => 1 # 1000 | Eps5 => 5 # 1000 end.
Definition Qlt_bool (a b : Q) : bool := negb (Qle_bool b a).
Lemma Qlt_bool_iff a b : Qlt_bool a b = true <-> (a < b)%Q.
Proof. unfold Qlt_bool. rewrite negb_true_iff. split; intro H.
  - apply Qnot_le_lt. intro L. apply Qle_bool_iff in L. congruence.
  - destruct (Qle_bool b a) eqn:L; [|reflexivity]. apply Qle_bool_iff in L. exfalso. apply (Qlt_not_le _ _ H L).
Qed.

(** SymPy computes exactly on the values that [num] relates to rational numbers. [num v q i]:
    the value of [v] is [q], and [i] says whether [v] is an Integer object.  evalf gives a
    Float, except that it gives the Integer 0 for zero. *)
Record exact (num : val -> Q -> bool -> Prop) : Prop := {
  ex_expr : forall v q i, num v q i -> exists e, v = VExpr e /\ pure_to (op_has_I _ _ _ _ _ SP e) false;
  ex_eq0 : forall v q i, num v q i -> pure_to (op_eq0 _ _ _ _ _ SP v) (Qeq_bool q 0);
  ex_is_zero : forall v q i, num v q i -> pure_to (op_is_zero _ _ _ _ _ SP v) (Some (Qeq_bool q 0));
  ex_is_number : forall v q i, num v q i -> pure_to (op_is_number _ _ _ _ _ SP v) true;
  ex_symbols : forall v q i, num v q i -> pure_to (op_free_symbols _ _ _ _ _ SP v) [];
  ex_integer : forall v q i, num v q i -> pure_to (op_is_Integer _ _ _ _ _ SP v) i;
  ex_abs : forall v q i, num v q i -> exists w j, pure_to (op_abs _ _ _ _ _ SP v) w /\ num w (Qabs q) j;
  ex_evalf : forall v q i, num v q i -> exists w, pure_to (op_evalf _ _ _ _ _ SP v []) w /\ num w q (Qeq_bool q 0);
  ex_lt : forall v q i t, num v q i -> pure_to (op_lt _ _ _ _ _ SP v t) (Some (Qlt_bool q (threshold t)));
  ex_ge1 : forall v q i, num v q i -> pure_to (op_ge1 _ _ _ _ _ SP v) (Some (Qle_bool 1 q));
  ex_gt0 : forall v q i, num v q i -> pure_to (op_gt0 _ _ _ _ _ SP v) (Some (Qlt_bool 0 q));
  ex_div : forall v q i w p j, num v q i -> num w p j -> ~ (p == 0)%Q ->
           exists x k, pure_to (op_div _ _ _ _ _ SP v w) x /\ num x (q / p)%Q k;
  ex_sub : forall v q i w p j, num v q i -> num w p j ->
           exists x k, pure_to (op_sub _ _ _ _ _ SP v w) x /\ num x (q - p)%Q k;
  ex_equal : forall v q i w p j, num v q i -> num w p j ->
           exists b, pure_to (op_expand_equal _ _ _ _ _ SP v w) b /\ (b = true -> q == p)%Q;
}.

(** The rule *)
Definition close (int : bool) (g d : Q) : Prop :=
  (d == 0 \/ (int = true /\ Qabs d < 1 # 1000) \/
   (int = false /\ 1 <= Qabs g /\ Qabs d < 5 # 1000) \/
   (int = false /\ 0 < Qabs g /\ Qabs g < 1 /\ Qabs (d / g) < 1 # 1000))%Q.

Section T.
Variable num : val -> Q -> bool -> Prop.
Hypothesis X : exact num.

Lemma attr_num {A} v q i (m : M St A) : num v q i -> attr v m = m.
Proof. intro H. destruct (ex_expr _ X _ _ _ H) as (e & -> & _). reflexivity. Qed.
Lemma zero_num v q i : num v q i -> pure_to (is_sympy_zero SP v) (Qeq_bool q 0).
Proof.
  intro H. destruct (ex_expr _ X _ _ _ H) as (e & -> & _). cbn [is_sympy_zero].
  eapply pure_bind; [exact (ex_eq0 _ X _ _ _ H)|]. destruct (Qeq_bool q 0) eqn:Z0; [apply pure_ret|].
  eapply pure_bind; [exact (ex_is_zero _ X _ _ _ H)|]. rewrite Z0. apply pure_ret.
Qed.
Lemma pure_try_except' {A} (m h : M St A) a : pure_to m a -> pure_to (try_except m h) a.
Proof. apply pure_try_except. Qed.
Lemma abs_num v q i : num v q i -> exists w j, pure_to (sympy_abs SP v) w /\ num w (Qabs q) j.
Proof. intro H. destruct (ex_abs _ X _ _ _ H) as (w & j & Hw & Hn). exists w, j. split; [apply pure_try_except, Hw|exact Hn]. Qed.
Lemma evalf_num v q i : num v q i -> exists w, pure_to (sympy_evalf SP v []) w /\ num w q (Qeq_bool q 0).
Proof.
  intro H. destruct (ex_evalf _ X _ _ _ H) as (w & Hw & Hn). exists w. split; [|exact Hn].
  unfold sympy_evalf. rewrite (attr_num _ _ _ _ H). apply pure_try_except, Hw.
Qed.
Lemma abs_smaller_num v q i t : num v q i -> pure_to (abs_smaller SP v t) (Some (Qlt_bool (Qabs q) (threshold t))).
Proof.
  intro H. apply pure_try_bare. destruct (abs_num _ _ _ H) as (w & j & Hw & Hn).
  eapply pure_bind; [exact Hw|]. eapply pure_bind; [exact (ex_lt _ X _ _ _ t Hn)|].
  destruct (Qlt_bool (Qabs q) (threshold t)) eqn:L.
  - eapply pure_bind; [apply pure_ret|]. apply pure_ret.
  - eapply pure_bind; [apply pure_ret|]. destruct (evalf_num _ _ _ Hn) as (w' & Hw' & Hn').
    eapply pure_bind; [exact Hw'|]. assert (Q := ex_lt _ X _ _ _ t Hn'). rewrite L in Q.
    destruct (ex_expr _ X _ _ _ Hn') as (e & -> & _). exact Q.
Qed.
Lemma Qabs_eq0 g : ((0 < Qabs g) <-> ~ g == 0)%Q.
Proof.
  split; intro H.
  - intro E0. rewrite E0 in H. discriminate H.
  - destruct (Qlt_le_dec 0 (Qabs g)) as [L|L]; [exact L|]. exfalso. apply H.
    apply Qabs_Qle_condition in L. destruct L. lra.
Qed.

Theorem diff_equal_exact g q i d p j : num g q i -> num d p j ->
  exists b, pure_to (diff_equal SP g d) (Some b) /\ (b = true <-> close i q p).
Proof.
  intros Hg Hd. unfold diff_equal, close.
  assert (Z := zero_num _ _ _ Hd). destruct (Qeq_bool p 0) eqn:Z0.
  { exists true. split; [eapply pure_bind; [exact Z|apply pure_ret]|]. apply Qeq_bool_iff in Z0. tauto. }
  assert (N0 : ~ (p == 0)%Q) by (intro E0; apply Qeq_bool_iff in E0; congruence).
  destruct i.
  { exists (Qlt_bool (Qabs p) (threshold Eps)). split.
    - eapply pure_bind; [exact Z|]. eapply pure_bind; [rewrite (attr_num _ _ _ _ Hd); exact (ex_is_number _ X _ _ _ Hd)|].
      eapply pure_bind; [rewrite (attr_num _ _ _ _ Hg); exact (ex_symbols _ X _ _ _ Hg)|].
      eapply pure_bind; [rewrite (attr_num _ _ _ _ Hg); exact (ex_integer _ X _ _ _ Hg)|]. exact (abs_smaller_num _ _ _ Eps Hd).
    - rewrite Qlt_bool_iff. cbn [threshold]. split; [tauto|]. intros [?|[?|[[? _]|[? _]]]]; [tauto|tauto|discriminate..]. }
  assert (Pre : forall k r, pure_to k r ->
    pure_to (z <- is_sympy_zero SP d ;; if z then ret (Some true) else
      n <- attr d (op_is_number _ _ _ _ _ SP d) ;; if n then
        fs <- attr g (op_free_symbols _ _ _ _ _ SP g) ;;
        i <- (match fs with [] => attr g (op_is_Integer _ _ _ _ _ SP g) | _ => ret true end) ;;
        if i then abs_smaller SP d Eps else k else ret (Some false)) r).
  { intros k r Hk. eapply pure_bind; [exact Z|]. eapply pure_bind; [rewrite (attr_num _ _ _ _ Hd); exact (ex_is_number _ X _ _ _ Hd)|].
    eapply pure_bind; [rewrite (attr_num _ _ _ _ Hg); exact (ex_symbols _ X _ _ _ Hg)|].
    eapply pure_bind; [rewrite (attr_num _ _ _ _ Hg); exact (ex_integer _ X _ _ _ Hg)|]. exact Hk. }
  destruct (abs_num _ _ _ Hg) as (w & k & Hw & Hn).
  assert (G1 := ex_ge1 _ X _ _ _ Hn). destruct (Qle_bool 1 (Qabs q)) eqn:L1.
  { exists (Qlt_bool (Qabs p) (threshold Eps5)). split.
    - apply Pre. eapply pure_bind; [exact Hw|]. eapply pure_bind; [exact G1|]. eapply pure_bind; [apply pure_ret|]. exact (abs_smaller_num _ _ _ Eps5 Hd).
    - apply Qle_bool_iff in L1. rewrite Qlt_bool_iff. cbn [threshold]. split; [tauto|].
      intros [?|[[? _]|[(_ & _ & ?)|(_ & _ & ? & _)]]]; [tauto|discriminate|assumption|exfalso; eapply Qlt_not_le; eassumption]. }
  assert (L1' : (Qabs q < 1)%Q) by (apply Qnot_le_lt; intro L; apply Qle_bool_iff in L; congruence).
  assert (G0 := ex_gt0 _ X _ _ _ Hn). destruct (Qlt_bool 0 (Qabs q)) eqn:L0.
  - apply Qlt_bool_iff in L0. assert (Nq := proj1 (Qabs_eq0 q) L0).
    destruct (ex_div _ X _ _ _ _ _ _ Hd Hg Nq) as (y & m & Hy & Hyn).
    exists (Qlt_bool (Qabs (p / q)) (threshold Eps)). split.
    + apply Pre. eapply pure_bind; [exact Hw|]. eapply pure_bind; [exact G1|]. eapply pure_bind; [apply pure_ret|]. cbn iota.
      eapply pure_bind; [exact (ex_is_number _ X _ _ _ Hg)|]. eapply pure_bind; [exact Hw|]. eapply pure_bind; [exact G0|].
      eapply pure_bind; [apply pure_ret|]. eapply pure_bind; [exact Hy|]. exact (abs_smaller_num _ _ _ Eps Hyn).
    + rewrite Qlt_bool_iff. cbn [threshold]. split; [tauto|].
      intros [?|[[? _]|[(_ & G & _)|(_ & _ & _ & ?)]]]; [tauto|discriminate|exfalso; exact (Qlt_not_le _ _ L1' G)|assumption].
  - exists false. split.
    + apply Pre. eapply pure_bind; [exact Hw|]. eapply pure_bind; [exact G1|]. eapply pure_bind; [apply pure_ret|]. cbn iota.
      eapply pure_bind; [exact (ex_is_number _ X _ _ _ Hg)|]. eapply pure_bind; [exact Hw|]. eapply pure_bind; [exact G0|].
      eapply pure_bind; [apply pure_ret|]. apply pure_ret.
    + split; [discriminate|]. intros [?|[[? _]|[(_ & G & _)|(_ & L & _)]]]; [tauto|discriminate|exfalso; exact (Qlt_not_le _ _ L1' G)|].
      apply Qlt_bool_iff in L. congruence.
Qed.

(** The scalar comparison of two exact numbers: the ground truth is a Float by then unless it
    is zero, so the clause for integers applies to zero only. *)
Definition scalar_close (g v : Q) : Prop :=
  (g == v \/ (g == 0 /\ Qabs v < 1 # 1000) \/ (1 <= Qabs g /\ Qabs (g - v) < 5 # 1000) \/
   (0 < Qabs g /\ Qabs g < 1 /\ Qabs ((g - v) / g) < 1 # 1000))%Q.
Lemma close_scalar q p : close (Qeq_bool q 0) q (q - p)%Q <-> scalar_close q p.
Proof.
  unfold close, scalar_close. assert (D : (q - p == 0 <-> q == p)%Q) by (split; intro H; [rewrite <- (Qplus_inj_r _ _ (-p)); rewrite H; ring|rewrite H; ring]).
  destruct (Qeq_bool q 0) eqn:Z0.
  - apply Qeq_bool_iff in Z0. assert (A : (Qabs q == 0)%Q) by (rewrite Z0; reflexivity).
    assert (B : (Qabs (q - p) == Qabs p)%Q) by (rewrite Z0; setoid_replace (0 - p)%Q with (- p)%Q by ring; apply Qabs_opp).
    split.
    + intros [H|[[_ H]|[[? _]|[? _]]]]; [left; tauto| |discriminate..]. right; left. rewrite <- B. auto.
    + intros [H|[[_ H]|[[H _]|[H _]]]]; [left; tauto| |rewrite A in H; exfalso; lra|rewrite A in H; exfalso; lra].
      right; left. rewrite B. auto.
  - assert (N0 : ~ (q == 0)%Q) by (intro E0; apply Qeq_bool_iff in E0; congruence).
    split.
    + intros [H|[[? _]|[[_ H]|[_ H]]]]; [tauto|discriminate|tauto|tauto].
    + intros [H|[[H _]|[H|H]]]; [tauto|contradiction|tauto|tauto].
Qed.
Theorem scalar_exact g q i v p j : num g q i -> num v p j ->
  exists b, pure_to (scalar_equal SP g v) b /\ (b = true <-> scalar_close q p).
Proof.
  intros Hg Hv. destruct (evalf_num _ _ _ Hg) as (g' & Eg & Ng). destruct (evalf_num _ _ _ Hv) as (v' & Ev & Nv).
  destruct (ex_equal _ X _ _ _ _ _ _ Ng Nv) as (e & Pe & He).
  destruct (ex_sub _ X _ _ _ _ _ _ Ng Nv) as (d & k & Pd & Nd). destruct (ex_evalf _ X _ _ _ Nd) as (d' & Ed & Nd').
  destruct (diff_equal_exact _ _ _ _ _ _ Ng Nd') as (b & Pb & Hb).
  assert (Pre : forall r K, pure_to (K g' v') r ->
    pure_to (n1 <- attr g (op_is_number _ _ _ _ _ SP g) ;; gt <- (if n1 then sympy_evalf SP g [] else ret g) ;;
             n2 <- attr v (op_is_number _ _ _ _ _ SP v) ;; gv <- (if n2 then sympy_evalf SP v [] else ret v) ;; (K gt gv : M St bool)) r).
  { intros r K HK. eapply pure_bind; [rewrite (attr_num _ _ _ _ Hg); exact (ex_is_number _ X _ _ _ Hg)|]. eapply pure_bind; [exact Eg|].
    eapply pure_bind; [rewrite (attr_num _ _ _ _ Hv); exact (ex_is_number _ X _ _ _ Hv)|]. eapply pure_bind; [exact Ev|]. exact HK. }
  exists (e || b). split.
  - unfold scalar_equal. apply Pre. eapply pure_bind.
    { apply pure_try_bare. unfold sympy_expand_equal. rewrite (attr_num _ _ _ _ Ng), (attr_num _ _ _ _ Nv). apply pure_try_except, Pe. }
    destruct e; [apply pure_ret|]. eapply pure_bind.
    { apply pure_try_bare. eapply pure_bind; [exact Pd|]. eapply pure_bind; [|exact Pb].
      unfold sympy_simplify. rewrite (attr_num _ _ _ _ Nd). apply pure_try_except. eapply pure_bind; [exact (ex_is_number _ X _ _ _ Nd)|]. exact Ed. }
    eapply pure_bind; [apply pure_ret|]. destruct b; [apply pure_ret|]. apply pure_try_bare.
    eapply pure_bind; [rewrite (attr_num _ _ _ _ Ng); exact (ex_symbols _ X _ _ _ Ng)|]. eapply pure_bind; [apply pure_ret|]. apply pure_ret.
  - rewrite orb_true_iff, Hb, close_scalar. split; [|tauto]. intros [E1|H]; [|exact H]. left. exact (He E1).
Qed.
Theorem compare_exact n g q i v p j : num g q i -> num v p j ->
  exists b, pure_to (compare SP (S n) g v) b /\ (b = true <-> scalar_close q p).
Proof.
  intros Hg Hv. destruct (scalar_exact _ _ _ _ _ _ Hg Hv) as (b & Pb & Hb). exists b. split; [|exact Hb].
  assert (F1 := ex_symbols _ X _ _ _ Hg). assert (F2 := ex_symbols _ X _ _ _ Hv).
  destruct (ex_expr _ X _ _ _ Hg) as (e1 & -> & I1). destruct (ex_expr _ X _ _ _ Hv) as (e2 & -> & I2).
  assert (T1 : pure_to (get_sympy_type SP (VExpr e1)) TExpr) by (eapply pure_bind; [exact I1|apply pure_ret]).
  assert (T2 : pure_to (get_sympy_type SP (VExpr e2)) TExpr) by (eapply pure_bind; [exact I2|apply pure_ret]).
  unfold compare, typed. eapply pure_bind; [exact T1|]. eapply pure_bind; [exact T2|].
  cbn [equal_sympy]. unfold body. cbn -[scalar_equal expr_with_only_i].
  assert (O : forall e, pure_to (op_free_symbols _ _ _ _ _ SP (VExpr e)) [] -> pure_to (expr_with_only_i SP (VExpr e)) (VExpr e, false)).
  { intros e F. unfold expr_with_only_i. eapply pure_bind; [exact F|apply pure_ret]. }
  eapply pure_bind.
  - eapply pure_bind; [exact (O _ F1)|]. eapply pure_bind; [exact (O _ F2)|]. apply pure_ret.
  - exact Pb.
Qed.
(** Neither symmetric nor transitive *)
Lemma asymmetric n g i v j : num g 1 i -> num v (9955 # 10000) j ->
  pure_to (compare SP (S n) g v) true /\ pure_to (compare SP (S n) v g) false.
Proof.
  intros Hg Hv. destruct (compare_exact n _ _ _ _ _ _ Hg Hv) as (b & Pb & Hb). destruct (compare_exact n _ _ _ _ _ _ Hv Hg) as (b' & Pb' & Hb').
  assert (b = true) as -> by (apply Hb; right; right; left; split; [discriminate|reflexivity]).
  destruct b'; [exfalso|split; assumption]. destruct (proj1 Hb' eq_refl) as [H|[[H _]|[[H _]|(_ & _ & H)]]]; try discriminate H. apply H. reflexivity.
Qed.
Lemma intransitive n a i b j c k : num a 1 i -> num b (1004 # 1000) j -> num c (1008 # 1000) k ->
  pure_to (compare SP (S n) a b) true /\ pure_to (compare SP (S n) b c) true /\ pure_to (compare SP (S n) a c) false.
Proof.
  intros Ha Hb Hc. destruct (compare_exact n _ _ _ _ _ _ Ha Hb) as (x & Px & Hx). destruct (compare_exact n _ _ _ _ _ _ Hb Hc) as (y & Py & Hy).
  destruct (compare_exact n _ _ _ _ _ _ Ha Hc) as (z & Pz & Hz).
  assert (x = true) as -> by (apply Hx; right; right; left; split; [discriminate|reflexivity]).
  assert (y = true) as -> by (apply Hy; right; right; left; split; [discriminate|reflexivity]).
  destruct z; [exfalso|repeat split; assumption]. destruct (proj1 Hz eq_refl) as [H|[[H _]|[[_ H]|(_ & H & _)]]]; discriminate H.
Qed.
(** The strict bound for integers is dead for every integer but zero. *)
Lemma integers_loose n g z i v p j : num g (inject_Z z) i -> num v p j -> z <> 0%Z -> (Qabs (inject_Z z - p) < 5 # 1000)%Q ->
  pure_to (compare SP (S n) g v) true.
Proof.
  intros Hg Hv Nz Hd. destruct (compare_exact n _ _ _ _ _ _ Hg Hv) as (x & Px & Hx).
  assert (x = true) as -> by (apply Hx; right; right; left; split; [unfold Qle; cbn; lia|exact Hd]). exact Px.
Qed.
End T.

(** ** The random test *)
(** [gt] and [gv] evaluate to identical numbers under every assignment of [syms]. *)
Definition same_values (syms : list Sym) (gt gv : val) : Prop :=
  forall env, map fst env = syms -> exists a b d, pure_to (op_evalf _ _ _ _ _ SP gt env) a /\ pure_to (op_evalf _ _ _ _ _ SP gv env) b /\
    a <> VNone /\ b <> VNone /\ pure_to (op_sub _ _ _ _ _ SP a b) d /\ pure_to (is_sympy_zero SP d) true.
Definition object (v : val) : Prop := match v with VList _ | VSet _ | VTuple _ | VNone => False | _ => True end.
Lemma attr_object {A} v (m : M St A) : object v -> attr v m = m.
Proof. destruct v; cbn; tauto. Qed.
(** The generator returns, whatever it returns. *)
Definition rng_returns : Prop := forall f st, exists x st', op_rng _ _ _ _ _ SP f st = (Ret x, st').

Lemma draw_returns rng syms : rng_returns -> forall st, exists env st', draw SP rng syms st = (Ret env, st') /\ map fst env = syms.
Proof.
  intro R. induction syms as [|s syms IH]; intro st; [exists [], st; split; reflexivity|].
  destruct (R rng st) as (x & s1 & E1). destruct (IH s1) as (env & s2 & E2 & M2). exists ((s, x) :: env), s2. split; [|cbn; congruence].
  cbn [draw]. rewrite (bind_step _ _ _ _ _ E1), (bind_step _ _ _ _ _ E2). reflexivity.
Qed.
Lemma diff_zero g d : pure_to (is_sympy_zero SP d) true -> pure_to (diff_equal SP g d) (Some true).
Proof. intro H. unfold diff_equal. eapply pure_bind; [exact H|]. apply pure_ret. Qed.
Theorem sample_accepts rng gt gv syms n : rng_returns -> object gt -> object gv -> same_values syms gt gv -> pure_to (sample SP rng gt gv syms n) true.
Proof.
  intros R O1 O2 H. induction n as [|n IH]; [apply pure_ret|]. intro st. cbn [sample].
  destruct (draw_returns rng syms R st) as (env & s1 & E1 & M1). rewrite (bind_step _ _ _ _ _ E1). revert s1 E1. intros s1 _. revert s1.
  destruct (H env M1) as (a & b & d & Pa & Pb & Na & Nb & Pd & Pz).
  eapply pure_bind; [unfold sympy_evalf; rewrite (attr_object _ _ O1); apply pure_try_except, Pa|].
  eapply pure_bind; [unfold sympy_evalf; rewrite (attr_object _ _ O2); apply pure_try_except, Pb|].
  assert (K : pure_to (d0 <- op_sub _ _ _ _ _ SP a b ;; r <- diff_equal SP a d0 ;; r <- as_bool r ;; if r then sample SP rng gt gv syms n else ret false) true).
  { eapply pure_bind; [exact Pd|]. eapply pure_bind; [exact (diff_zero _ _ Pz)|]. eapply pure_bind; [apply pure_ret|]. exact IH. }
  destruct a; try congruence; destruct b; try congruence; exact K.
Qed.
Theorem numerical_accepts rng gt gv f1 f2 : rng_returns -> object gt -> object gv ->
  pure_to (op_free_symbols _ _ _ _ _ SP gt) f1 -> pure_to (op_free_symbols _ _ _ _ _ SP gv) f2 ->
  op_same_symbols _ _ _ _ _ SP f1 f2 = true -> same_values f1 gt gv -> pure_to (numerical_equal SP rng gt gv) true.
Proof.
  intros R O1 O2 P1 P2 S H. unfold numerical_equal. eapply pure_bind; [rewrite (attr_object _ _ O1); exact P1|].
  eapply pure_bind; [rewrite (attr_object _ _ O2); exact P2|]. rewrite S. exact (sample_accepts _ _ _ _ _ R O1 O2 H).
Qed.
(** Different symbols: rejected, and no state is touched beyond asking for the symbols *)
Theorem numerical_rejects rng gt gv f1 f2 st s1 s2 : object gt -> object gv ->
  op_free_symbols _ _ _ _ _ SP gt st = (Ret f1, s1) -> op_free_symbols _ _ _ _ _ SP gv s1 = (Ret f2, s2) ->
  op_same_symbols _ _ _ _ _ SP f1 f2 = false -> numerical_equal SP rng gt gv st = (Ret false, s2).
Proof.
  intros O1 O2 P1 P2 S. unfold numerical_equal. rewrite (bind_step _ _ _ _ _ (eq_trans (f_equal (fun m => m st) (attr_object gt _ O1)) P1)).
  rewrite (bind_step _ _ _ _ _ (eq_trans (f_equal (fun m => m s1) (attr_object gv _ O2)) P2)), S. reflexivity.
Qed.

(** *** How many numbers are drawn *)
(** [c] counts the numbers drawn so far: only the generator changes it, by one. *)
Definition steady (c : St -> nat) {A} (m : M St A) : Prop := forall st, c (snd (m st)) = c st.
Record counts (c : St -> nat) : Prop := {
  co_rng : forall f st, c (snd (op_rng _ _ _ _ _ SP f st)) <= S (c st);
  co_symbols : forall v, steady c (op_free_symbols _ _ _ _ _ SP v);
  co_evalf : forall v e, steady c (op_evalf _ _ _ _ _ SP v e);
  co_sub : forall v w, steady c (op_sub _ _ _ _ _ SP v w);
  co_div : forall v w, steady c (op_div _ _ _ _ _ SP v w);
  co_eq0 : forall v, steady c (op_eq0 _ _ _ _ _ SP v);
  co_is_zero : forall v, steady c (op_is_zero _ _ _ _ _ SP v);
  co_number : forall v, steady c (op_is_number _ _ _ _ _ SP v);
  co_integer : forall v, steady c (op_is_Integer _ _ _ _ _ SP v);
  co_abs : forall v, steady c (op_abs _ _ _ _ _ SP v);
  co_lt : forall v t, steady c (op_lt _ _ _ _ _ SP v t);
  co_ge1 : forall v, steady c (op_ge1 _ _ _ _ _ SP v);
  co_gt0 : forall v, steady c (op_gt0 _ _ _ _ _ SP v);
}.
(** [m] draws at most [k] numbers *)
Definition draws (c : St -> nat) {A} (k : nat) (m : M St A) : Prop := forall st, c (snd (m st)) <= k + c st.
Section C.
Variable c : St -> nat.
Hypothesis C : counts c.
Lemma draws_ret {A} (a : A) : draws c 0 (ret a).
Proof. intro st. cbn. lia. Qed.
Lemma draws_raise {A} e : draws c 0 (raise e : M St A).
Proof. intro st. cbn. lia. Qed.
Lemma draws_steady {A} (m : M St A) : steady c m -> draws c 0 m.
Proof. intros H st. rewrite (H st). lia. Qed.
Lemma draws_bind {A B} j k (m : M St A) (f : A -> M St B) : draws c j m -> (forall a, draws c k (f a)) -> draws c (j + k) (bind m f).
Proof.
  intros H1 H2 st. unfold bind. specialize (H1 st). destruct (m st) as [[a|e] s1]; cbn [snd] in *; [specialize (H2 a s1)|]; lia.
Qed.
Lemma draws_bind0 {A B} k (m : M St A) (f : A -> M St B) : draws c 0 m -> (forall a, draws c k (f a)) -> draws c k (bind m f).
Proof. exact (draws_bind 0 k m f). Qed.
Lemma draws_mono {A} j k (m : M St A) : draws c j m -> j <= k -> draws c k m.
Proof. intros H L st. specialize (H st). lia. Qed.
Lemma draws_attr {A} k (v : val) (m : M St A) : draws c k m -> draws c k (attr v m).
Proof. intro H. destruct v; try exact H; (eapply draws_mono; [apply draws_raise|lia]). Qed.
Lemma draws_try_except {A} (m h : M St A) : draws c 0 m -> draws c 0 h -> draws c 0 (try_except m h).
Proof.
  intros H1 H2 st. specialize (H1 st). unfold try_except. destruct (m st) as [[a|e] s1]; cbn [snd] in *; [lia|].
  specialize (H2 s1). destruct (is_Exception e); cbn [snd]; lia.
Qed.
Lemma draws_try_bare {A} (m h : M St A) : draws c 0 m -> draws c 0 h -> draws c 0 (try_bare m h).
Proof. intros H1 H2 st. specialize (H1 st). unfold try_bare. destruct (m st) as [[a|e] s1]; cbn [snd] in *; [lia|]. specialize (H2 s1). lia. Qed.
Lemma draws_as_bool b : draws c 0 (as_bool b : M St bool).
Proof. destruct b; [apply draws_ret|apply draws_raise]. Qed.
Ltac calm := repeat first
  [ apply draws_ret | apply draws_raise | apply draws_as_bool | apply draws_attr | apply draws_try_except | apply draws_try_bare
  | apply draws_steady; first [apply (co_symbols _ C)|apply (co_evalf _ C)|apply (co_sub _ C)|apply (co_div _ C)|apply (co_eq0 _ C)|apply (co_is_zero _ C)
      |apply (co_number _ C)|apply (co_integer _ C)|apply (co_abs _ C)|apply (co_lt _ C)|apply (co_ge1 _ C)|apply (co_gt0 _ C)]
  | apply draws_bind0; [|intro]
  | match goal with |- draws _ _ (match ?x with _ => _ end) => destruct x end ].
Lemma draws_zero v : draws c 0 (is_sympy_zero SP v).
Proof. unfold is_sympy_zero. calm. Qed.
Lemma draws_smaller v t : draws c 0 (abs_smaller SP v t).
Proof. unfold abs_smaller, sympy_abs, sympy_evalf. calm. Qed.
Lemma draws_diff g d : draws c 0 (diff_equal SP g d).
Proof.
  unfold diff_equal, sympy_abs. apply draws_bind0; [apply draws_zero|intro]. calm; apply draws_smaller.
Qed.
Lemma draws_draw rng syms : draws c (length syms) (draw SP rng syms).
Proof.
  induction syms as [|s syms IH]; [apply draws_ret|]. cbn [draw length]. apply (draws_bind 1); [intro st; apply (co_rng _ C)|intro].
  replace (length syms) with (length syms + 0) by lia. apply draws_bind; [exact IH|intro; apply draws_ret].
Qed.
Theorem sample_draws rng gt gv syms n : draws c (n * length syms) (sample SP rng gt gv syms n).
Proof.
  induction n as [|n IH]; [apply draws_ret|]. cbn [sample Nat.mul]. apply draws_bind; [apply draws_draw|intro env].
  apply draws_bind0; [unfold sympy_evalf; calm|intro a]. apply draws_bind0; [unfold sympy_evalf; calm|intro b].
  assert (K : draws c (n * length syms) (d0 <- op_sub _ _ _ _ _ SP a b ;; r <- diff_equal SP a d0 ;; r <- as_bool r ;; if r then sample SP rng gt gv syms n else ret false)).
  { apply draws_bind0; [calm|intro]. apply draws_bind0; [apply draws_diff|intro]. apply draws_bind0; [calm|intro r].
    destruct r; [exact IH|]. eapply draws_mono; [apply draws_ret|lia]. }
  assert (Z : draws c (n * length syms) (ret false : M St bool)) by (eapply draws_mono; [apply draws_ret|lia]).
  destruct a, b; solve [exact K|exact Z].
Qed.
Theorem numerical_draws rng gt gv f1 :
  (forall st, match fst (op_free_symbols _ _ _ _ _ SP gt st) with Ret f => f = f1 | Raise _ => True end) ->
  draws c (10 * length f1) (numerical_equal SP rng gt gv).
Proof.
  intros H st. unfold numerical_equal. unfold bind at 1.
  assert (D : draws c 0 (attr gt (op_free_symbols _ _ _ _ _ SP gt))) by calm. specialize (D st).
  assert (F : match fst (attr gt (op_free_symbols _ _ _ _ _ SP gt) st) with Ret f => f = f1 | Raise _ => True end) by (destruct gt; cbn [attr]; try exact (H st); exact I).
  destruct (attr gt (op_free_symbols _ _ _ _ _ SP gt) st) as [[f|e] s1]; cbn [fst snd] in *; [|lia]. subst f.
  assert (G : draws c (10 * length f1) (f2 <- attr gv (op_free_symbols _ _ _ _ _ SP gv) ;; if negb (op_same_symbols _ _ _ _ _ SP f1 f2) then ret false else sample SP rng gt gv f1 10)).
  { apply draws_bind0; [calm|intro f2]. destruct (negb _); [eapply draws_mono; [apply draws_ret|lia]|apply sample_draws]. }
  specialize (G s1). lia.
Qed.
End C.
End N.
