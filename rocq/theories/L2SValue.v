(** The value of a converted parse tree.

    [Reads]: the usual reading of arithmetic trees as values of an arbitrary arithmetic [A], stated
    without the converter.  [faithful]: what SymPy's unevaluated constructors denote. *)
From Coq Require Import String List NArith ZArith QArith Bool Lia.
From Verif Require Import PyStr PyStrTheory Regex Normalize Monad L2S MonadTheory NumTheory SplitTheory L2STheory L2SState.
Import ListNotations.
Local Open Scope mon_scope.
Local Close Scope Q_scope.

(** Addition and multiplication associate and have units; a negative is a product with -1 and a
    quotient a product with a power -1.  Nothing is assumed of powers and functions otherwise. *)
Record arithmetic (A : Type) := {
  of_Q : Q -> A;
  add : A -> A -> A; mul : A -> A -> A; opp : A -> A; sub : A -> A -> A; div : A -> A -> A;
  power : A -> A -> A;
  fn : pystr -> list A -> A;               (* named functions *)
  const_I : A; const_oo : A; const_pi : A; const_E : A;
  add_assoc : forall x y z, add x (add y z) = add (add x y) z;
  add_0_l : forall x, add (of_Q 0) x = x; add_0_r : forall x, add x (of_Q 0) = x;
  mul_assoc : forall x y z, mul x (mul y z) = mul (mul x y) z;
  mul_1_l : forall x, mul (of_Q 1) x = x; mul_1_r : forall x, mul x (of_Q 1) = x;
  sub_opp : forall x y, sub x y = add x (opp y);
  opp_mul : forall x, opp x = mul (of_Q (-1)) x;
  div_power : forall x y, div x y = mul x (power y (of_Q (-1)))
}.
Arguments of_Q {A}. Arguments add {A}. Arguments mul {A}. Arguments opp {A}. Arguments sub {A}. Arguments div {A}.
Arguments power {A}. Arguments fn {A}. Arguments const_I {A}. Arguments const_oo {A}. Arguments const_pi {A}. Arguments const_E {A}.

(** Decimal numerals: digits, or digits, a point and at least one digit *)
Inductive decimal : pystr -> Q -> Prop :=
| dec_int s : Forall ascii_digit s -> s <> [] -> decimal s (inject_Z (Z.of_N (dec_value s)))
| dec_frac a b : Forall ascii_digit a -> Forall ascii_digit b -> b <> [] ->
    decimal (a ++ [46%N] ++ b) (Z.of_N (dec_value (a ++ b)) # Pos.pow 10 (Pos.of_nat (List.length b))).
Definition no_commas (s : pystr) : pystr := filter (fun c => negb (N.eqb c 44)) s.

Definition trig_names : list pystr := map u ["sin"; "cos"; "tan"; "csc"; "sec"; "cot"; "sinh"; "cosh"; "tanh"]%string.
(** arc names and what they are called in SymPy *)
Definition arc_names : list (pystr * pystr) :=
  map (fun p => (u (fst p), u (snd p)))
    [("arcsin", "asin"); ("arccos", "acos"); ("arctan", "atan"); ("arccsc", "acsc"); ("arcsec", "asec"); ("arccot", "acot");
     ("arcsinh", "asinh"); ("arccosh", "acosh"); ("arctanh", "atanh"); ("arsinh", "asinh"); ("arcosh", "acosh"); ("artanh", "atanh")]%string.
(** The SymPy functions of one and of two arguments that are used below *)
Definition fns1 : list pystr :=
  trig_names ++ map (fun f => u "a" ++ f) trig_names ++ map u ["factorial"; "Abs"; "floor"; "ceiling"; "exp"]%string.
Definition fns2 : list pystr := map u ["Mod"; "binomial"; "log"]%string.

Section Value.
Context {A : Type}.
Variable K : arithmetic A.
Variable V : Type.
Variable den : V -> A.
(** the valuation of the symbols, and the values of the \variable's (None: left as a symbol named by the hash of its name) *)
Variable rho : pystr -> A.
Variable values : list (pystr * pv V).
Variable hash : pystr -> pystr.
Definition variable_value (name : pystr) (a : A) : Prop :=
  match find (fun p => str_eqb (fst p) name) values with
  | Some (_, PSym v) => a = den v
  | Some _ => False
  | None => a = rho (name ++ hash name)
  end.

(** The name of a symbol with its subscript *)
Inductive names : sname -> option pystr -> pystr -> Prop :=
| nm_plain n x : bare n x -> names n None x
| nm_short n x s c : bare n x -> strip s = [c] -> names n (Some s) (x ++ [95%N; c])
| nm_long n x s c d r : bare n x -> strip s = c :: d :: r -> names n (Some s) (x ++ u "_{" ++ c :: d :: r ++ u "}")
with bare : sname -> pystr -> Prop :=
| ba_letter s : s <> u "I" -> bare (NLetter s) s
| ba_greek s : bare (NGreek (92%N :: s)) (strip s)
| ba_other s : bare (NOther s) (strip s).

(** A numeral alone *)
Inductive numeral_tree (d : pystr) : tree -> Prop :=
| nt_number : numeral_tree d (TNumber d)
| nt_juxt t : numeral_tree d t -> numeral_tree d (TJuxt [t]).
Inductive Reads : tree -> A -> Prop :=
| R_number s q : decimal (no_commas s) q -> Reads (TNumber s) (of_Q K q)
| R_percent s q : decimal (no_commas s) q -> Reads (TPercent (s ++ u "\%")) (div K (of_Q K q) (of_Q K 100))
| R_symbol n s x : names n s x -> Reads (TSymbol n s None) (rho x)
| R_power_symbol n s x e b : names n s x -> Reads e b -> Reads (TSymbol n s (Some e)) (power K (rho x) b)
| R_I : Reads (TSymbol (NLetter (u "I")) None None) (const_I K)
| R_oo : Reads (TConst (u "\infty")) (const_oo K)
| R_pi : Reads (TConst (u "\pi")) (const_pi K)
| R_variable name a : variable_value name a -> Reads (TVariable (u "\variable{" ++ name ++ u "}")) a
| R_variable_percent name a : variable_value name a -> Reads (TVariable (u "\variable{" ++ name ++ u "}\%")) (div K a (of_Q K 100))
| R_add s t a b : Reads s a -> Reads t b -> Reads (TAdd s t) (add K a b)
| R_sub s t a b : Reads s a -> Reads t b -> Reads (TSub s t) (sub K a b)
| R_times s t a b : Reads s a -> Reads t b -> Reads (TTimes s t) (mul K a b)
| R_divide s t a b : Reads s a -> Reads t b -> Reads (TDivide s t) (div K a b)
| R_mod s t a b : Reads s a -> Reads t b -> Reads (TMod s t) (fn K (u "Mod") [a; b])
| R_binom s t a b : Reads s a -> Reads t b -> Reads (TBinom s t) (fn K (u "binomial") [a; b])
| R_frac s t a b d : Reads s a -> Reads t b -> Reads (TFrac s t d DNone) (div K a b)
| R_fracd s t a b : Reads s a -> Reads t b -> Reads (TFracD s t) (div K a b)
| R_pow s t a b : Reads s a -> Reads t b -> Reads (TPow s t) (power K a b)
| R_plus s a : Reads s a -> Reads (TPlus s) a
| R_minus s a : Reads s a -> Reads (TMinus s) (opp K a)
| R_group s a : Reads s a -> Reads (TGroup s) a
| R_bang s a : Reads s a -> Reads (TBang s) (fn K (u "factorial") [a])
| R_abs s a : Reads s a -> Reads (TAbs s) (fn K (u "Abs") [a])
| R_floor s a : Reads s a -> Reads (TFloor s) (fn K (u "floor") [a])
| R_ceil s a : Reads s a -> Reads (TCeil s) (fn K (u "ceiling") [a])
| R_sqrt s a : Reads s a -> Reads (TSqrt s None) (power K a (of_Q K (1 # 2)))
| R_root s t a b : Reads s a -> Reads t b -> Reads (TSqrt s (Some t)) (power K a (div K (of_Q K 1) b))
| R_juxt l a : ReadsAll l a -> Reads (TJuxt l) a
(* functions of one argument *)
| R_trig f s a : In f trig_names -> Reads s a -> Reads (TFunc f [] None None s) (fn K f [a])
| R_trig_power f s t a b : In f trig_names -> Reads s a -> Reads t b -> b <> of_Q K 0 -> b <> of_Q K (-1) ->
    Reads (TFunc f [] None (Some t) s) (power K (fn K f [a]) b)
| R_trig_inverse f s d t a : In f trig_names -> Reads s a -> decimal (no_commas d) 1 -> numeral_tree d t ->
    Reads (TFunc f [] None (Some (TMinus t)) s) (fn K (u "a" ++ f) [a])
| R_arc f g s a : In (f, g) arc_names -> Reads s a -> Reads (TFunc f [] None None s) (fn K g [a])
| R_log s a : Reads s a -> Reads (TFunc (u "log") [] None None s) (fn K (u "log") [a; of_Q K 10])
| R_log_base s t a b : Reads s a -> Reads t b -> Reads (TFunc (u "log") [] (Some t) None s) (fn K (u "log") [a; b])
| R_ln s a : Reads s a -> Reads (TFunc (u "ln") [] None None s) (fn K (u "log") [a; const_E K])
| R_exp s a : Reads s a -> Reads (TFunc (u "exp") [] None None s) (fn K (u "exp") [a])
| R_e : Reads (TExp None) (fn K (u "exp") [of_Q K 1])
| R_e_power s a : Reads s a -> Reads (TExp (Some s)) (fn K (u "exp") [a])
with ReadsAll : list tree -> A -> Prop :=
| R_one t a : Reads t a -> ReadsAll [t] a
| R_more t l a b : Reads t a -> ReadsAll l b -> ReadsAll (t :: l) (mul K a b).
Scheme Reads_mut := Minimality for Reads Sort Prop with ReadsAll_mut := Minimality for ReadsAll Sort Prop.
Combined Scheme Reads_both from Reads_mut, ReadsAll_mut.

Variable O : LSympy V.
Definition sum (l : list A) : A := fold_right (add K) (of_Q K 0) l.
Definition product (l : list A) : A := fold_right (mul K) (of_Q K 1) l.
Definition scalar (v : V) : Prop := o_is_Matrix _ O v = false.
(** v is a scalar of value a *)
Definition worth (v : V) (a : A) : Prop := scalar v /\ den v = a.
Definition gives (r : res V) (a : A) : Prop := exists v, r = Ret v /\ worth v a.
Record faithful : Prop := {
  f_int : forall z, worth (o_int _ O z) (of_Q K (inject_Z z));
  f_symbol : forall x r, worth (o_symbol _ O x r) (rho x);
  f_hash : forall x, o_md5 _ O x = hash x;
  f_I : worth (o_I _ O) (const_I K);
  f_oo : worth (o_oo _ O) (const_oo K);
  f_pi : worth (o_pi _ O) (const_pi K);
  f_E : worth (o_E _ O) (const_E K);
  f_half : worth (o_half _ O) (of_Q K (1 # 2));
  f_number : forall s q, decimal s q -> exists v, o_number _ O s = Ret v /\ worth v (of_Q K q) /\ o_number_class _ O v = true;
  f_percent : forall v a, worth v a -> o_number_class _ O v = true -> gives (o_percent _ O v) (div K a (of_Q K 100));
  f_Add : forall v l, Forall scalar (v :: l) -> gives (o_Add _ O (v :: l)) (sum (map den (v :: l)));
  f_is_Add : forall v, scalar v -> o_is_Add _ O v = true -> den v = sum (map den (o_args _ O v)) /\ Forall scalar (o_args _ O v) /\ o_args _ O v <> [];
  f_Mul : forall v l, Forall scalar (v :: l) -> gives (o_Mul _ O (v :: l)) (product (map den (v :: l)));
  f_is_Mul : forall v, scalar v -> o_is_Mul _ O v = true -> den v = product (map den (o_args _ O v)) /\ Forall scalar (o_args _ O v) /\ o_args _ O v <> [];
  f_neg : forall v a, worth v a -> o_number_class _ O v = true ->
    exists w, o_neg _ O v = Ret w /\ worth w (opp K a) /\ o_number_class _ O w = true;
  f_Pow : forall v w a b, worth v a -> worth w b -> gives (o_Pow _ O v w) (power K a b);
  f_recip : forall v a, worth v a -> gives (o_recip _ O v) (div K (of_Q K 1) a);
  f_call1 : forall f v a, In f fns1 -> worth v a -> exists w, o_call _ O f [LV v] = Ret (LV w) /\ worth w (fn K f [a]);
  f_call2 : forall f v w a b, In f fns2 -> worth v a -> worth w b -> exists x, o_call _ O f [LV v; LV w] = Ret (LV x) /\ worth x (fn K f [a; b]);
  f_log10 : forall v a, worth v a -> exists x, o_call _ O (u "log") [LV v; LInt 10] = Ret (LV x) /\ worth x (fn K (u "log") [a; of_Q K 10]);
  f_exp1 : exists x, o_call _ O (u "exp") [LInt 1] = Ret (LV x) /\ worth x (fn K (u "exp") [of_Q K 1]);
  (* v == -1 only if v is -1, and for numbers whenever it is; only 0 is falsy *)
  f_minus_one : forall v a, worth v a -> exists b, o_is_minus_one _ O (LV v) = Ret b /\ (b = true -> a = of_Q K (-1)) /\
    (o_number_class _ O v = true -> a = opp K (of_Q K 1) -> b = true);
  f_truthy : forall v a, worth v a -> exists b, o_truthy _ O (LV v) = Ret b /\ (b = false -> a = of_Q K 0);
  f_values : forall x v, In (x, PSym v) values -> scalar v
}.
Hypothesis F : faithful.
Variable l2s : pystr -> list (pystr * pv V) -> M (globals V) (lv V).

(** The conversion returns a scalar of value a, without having declared anything *)
Definition yields (m : M (globals V) (lv V)) (a : A) : Prop :=
  forall st, g_var st = [] -> g_values st = values ->
  exists v st', m st = (Ret (LV v), st') /\ worth v a /\ g_var st' = [] /\ g_values st' = values.

Lemma yields_bind m f a b :
  yields m a -> (forall v, worth v a -> yields (f (LV v)) b) -> yields (bind m f) b.
Proof.
  intros Hm Hf st E1 E2. destruct (Hm st E1 E2) as (v & s & Es & W & E1' & E2').
  unfold bind. rewrite Es. apply (Hf v W s E1' E2').
Qed.
Lemma yields_ret v a : worth v a -> yields (ret (LV v)) a.
Proof. intros W st E1 E2. exists v, st. repeat split; try assumption; apply W. Qed.
Lemma yields_lift r a : (exists v, r = Ret (LV v) /\ worth v a) -> yields (lift_res r) a.
Proof. intros (v & -> & W). apply (yields_ret v a W). Qed.
Lemma yields_gives r a : gives r a -> yields (bind (lift_res r) (fun v => ret (LV v))) a.
Proof. intros (v & -> & W). apply (yields_ret v a W). Qed.
Lemma yields_ext (m m' : M (globals V) (lv V)) a : (forall st, m st = m' st) -> yields m a -> yields m' a.
Proof. intros E H st E1 E2. destruct (H st E1 E2) as (v & s & Es & W). exists v, s. rewrite <- E. auto. Qed.
Lemma yields_gets B (f : globals V -> B) k a : (forall x, yields (k x) a) -> yields (bind (gets f) k) a.
Proof. intros H st E1 E2. apply (H (f st) st E1 E2). Qed.
Lemma yields_flags d p k a : (forall x, yields (k x) a) -> yields (bind (set_flags d p) k) a.
Proof. intros H st E1 E2. unfold bind, set_flags. apply H; assumption. Qed.

Lemma sum_app l l' : sum (l ++ l') = add K (sum l) (sum l').
Proof.
  induction l as [|x l IH]; cbn [app sum fold_right]; [symmetry; apply add_0_l|].
  fold (sum (l ++ l')). rewrite IH. apply add_assoc.
Qed.
Lemma product_app l l' : product (l ++ l') = mul K (product l) (product l').
Proof.
  induction l as [|x l IH]; cbn [app product fold_right]; [symmetry; apply mul_1_l|].
  fold (product (l ++ l')). rewrite IH. apply mul_assoc.
Qed.
Lemma sympify_all_LV l st : sympify_all O (map LV l) st = (Ret l, st).
Proof.
  induction l as [|x l IH]; cbn [map sympify_all]; [reflexivity|].
  unfold bind. cbn [sympify]. unfold ret at 1. rewrite IH. reflexivity.
Qed.
(** flattening keeps the value *)
Lemma flat_add v : scalar v -> exists x l, flat O (o_is_Add V O) (LV v) = map LV (x :: l) /\ Forall scalar (x :: l) /\ sum (map den (x :: l)) = den v.
Proof.
  intro S. cbn [flat]. destruct (o_is_Add V O v) eqn:E.
  - destruct (f_is_Add F v S E) as (D & Fs & N). destruct (o_args V O v) as [|x l]; [contradiction|]. exists x, l. auto.
  - exists v, []. split; [reflexivity|]. split; [auto|]. cbn. apply add_0_r.
Qed.
Lemma flat_mul v : scalar v -> exists x l, flat O (o_is_Mul V O) (LV v) = map LV (x :: l) /\ Forall scalar (x :: l) /\ product (map den (x :: l)) = den v.
Proof.
  intro S. cbn [flat]. destruct (o_is_Mul V O v) eqn:E.
  - destruct (f_is_Mul F v S E) as (D & Fs & N). destruct (o_args V O v) as [|x l]; [contradiction|]. exists x, l. auto.
  - exists v, []. split; [reflexivity|]. split; [auto|]. cbn. apply mul_1_r.
Qed.
Lemma yields_add_flat v w a b : worth v a -> worth w b -> yields (add_flat O (LV v) (LV w)) (add K a b).
Proof.
  intros [Sv Dv] [Sw Dw]. unfold add_flat, build.
  destruct (flat_add v Sv) as (x & l & -> & F1 & D1). destruct (flat_add w Sw) as (y & l' & -> & F2 & D2).
  rewrite <- map_app. cbn [app].
  destruct (f_Add F x (l ++ y :: l')) as (r & Er & Wr); [change (Forall scalar ((x :: l) ++ y :: l')); apply Forall_app; auto|].
  intros st E1 E2. unfold bind. rewrite sympify_all_LV. unfold lift_res. rewrite Er. cbn.
  exists r, st. split; [reflexivity|]. split; [|auto]. destruct Wr as [Sr Dr]. split; [exact Sr|].
  rewrite Dr. change (x :: l ++ y :: l') with ((x :: l) ++ y :: l'). rewrite map_app, sum_app, D1, D2, Dv, Dw. reflexivity.
Qed.
Lemma yields_mul_flat v w a b : worth v a -> worth w b -> yields (mul_flat O (LV v) (LV w)) (mul K a b).
Proof.
  intros [Sv Dv] [Sw Dw]. unfold mul_flat, build.
  destruct (flat_mul v Sv) as (x & l & -> & F1 & D1). destruct (flat_mul w Sw) as (y & l' & -> & F2 & D2).
  rewrite <- map_app. cbn [app].
  destruct (f_Mul F x (l ++ y :: l')) as (r & Er & Wr); [change (Forall scalar ((x :: l) ++ y :: l')); apply Forall_app; auto|].
  intros st E1 E2. unfold bind. rewrite sympify_all_LV. unfold lift_res. rewrite Er. cbn.
  exists r, st. split; [reflexivity|]. split; [|auto]. destruct Wr as [Sr Dr]. split; [exact Sr|].
  rewrite Dr. change (x :: l ++ y :: l') with ((x :: l) ++ y :: l'). rewrite map_app, product_app, D1, D2, Dv, Dw. reflexivity.
Qed.
(** mul_flat(-1, w) *)
Lemma yields_minus_flat w b : worth w b -> yields (mul_flat O (LInt (-1)) (LV w)) (opp K b).
Proof.
  intros [Sw Dw]. unfold mul_flat, build. change (flat O (o_is_Mul V O) (LInt (-1))) with [@LInt V (-1)].
  destruct (flat_mul w Sw) as (y & l' & -> & F2 & D2). cbn [app].
  destruct (f_int F (-1)) as [Si Di].
  destruct (f_Mul F (o_int V O (-1)) (y :: l')) as (r & Er & Wr); [constructor; assumption|].
  intros st E1 E2. unfold bind. cbn [sympify_all]. unfold bind. cbn [sympify]. unfold ret at 1. rewrite sympify_all_LV.
  unfold ret at 1, lift_res. rewrite Er. cbn. exists r, st. split; [reflexivity|]. split; [|auto].
  destruct Wr as [Sr Dr]. split; [exact Sr|]. rewrite Dr. cbn [map product fold_right]. rewrite Di.
  change (fold_right (mul K) (of_Q K 1) (map den l')) with (product (map den l')).
  change (mul K (den y) (product (map den l'))) with (product (map den (y :: l'))). rewrite D2, Dw. symmetry. apply opp_mul.
Qed.
Lemma is_matrix_scalar v a st : worth v a -> is_matrix O (LV v) st = (Ret false, st).
Proof. intros [S _]. unfold is_matrix. rewrite S. reflexivity. Qed.
Lemma some_matrix_scalar v w a b st : worth v a -> worth w b -> some_matrix O (LV v) (LV w) st = (Ret false, st).
Proof.
  intros Hv Hw. unfold some_matrix, bind. rewrite (is_matrix_scalar v a st Hv). apply (is_matrix_scalar w b st Hw).
Qed.
Lemma yields_no_matrix v w a b (k : bool -> M (globals V) (lv V)) c :
  worth v a -> worth w b -> yields (k false) c -> yields (bind (some_matrix O (LV v) (LV w)) k) c.
Proof. intros Hv Hw H st E1 E2. unfold bind. rewrite (some_matrix_scalar v w a b st Hv Hw). apply (H st E1 E2). Qed.
Lemma yields_negate v a : worth v a -> yields (negate O (LV v)) (opp K a).
Proof.
  intro W. unfold negate. destruct (o_number_class V O v) eqn:E.
  - destruct (f_neg F v a W E) as (w & Ew & Ww & _). apply yields_gives. exists w; auto.
  - apply yields_minus_flat, W.
Qed.
Lemma yields_do_add v w a b : worth v a -> worth w b -> yields (do_add O (LV v) (LV w)) (add K a b).
Proof. intros Hv Hw. apply (yields_no_matrix v w a b); try assumption. apply yields_add_flat; assumption. Qed.
Lemma yields_do_sub v w a b : worth v a -> worth w b -> yields (do_sub O (LV v) (LV w)) (sub K a b).
Proof.
  intros Hv Hw. apply (yields_no_matrix v w a b); try assumption. rewrite sub_opp.
  apply (yields_bind _ _ (opp K b)); [apply yields_negate, Hw|]. intros x Hx. apply yields_add_flat; assumption.
Qed.
Lemma yields_do_mul v w a b : worth v a -> worth w b -> yields (do_mul O (LV v) (LV w)) (mul K a b).
Proof. intros Hv Hw. apply (yields_no_matrix v w a b); try assumption. apply yields_mul_flat; assumption. Qed.
Lemma worth_minus_one : worth (o_int V O (-1)) (of_Q K (-1)).
Proof. apply (f_int F). Qed.
(** a product of two unflattened factors *)
Lemma gives_quotient v w a b : worth v a -> worth w b ->
  exists i, o_Pow V O w (o_int V O (-1)) = Ret i /\ gives (o_Mul V O [v; i]) (div K a b).
Proof.
  intros Hv Hw. destruct (f_Pow F w _ b _ Hw worth_minus_one) as (i & Ei & Si & Di). exists i. split; [exact Ei|].
  destruct (f_Mul F v [i]) as (r & Er & Sr & Dr); [repeat constructor; [apply Hv|exact Si]|].
  exists r. split; [exact Er|]. split; [exact Sr|]. rewrite Dr. cbn. destruct Hv as [_ ->]. rewrite Di, mul_1_r. symmetry. apply div_power.
Qed.
Lemma yields_do_div v w a b : worth v a -> worth w b -> yields (do_div O (LV v) (LV w)) (div K a b).
Proof.
  intros Hv Hw. apply (yields_no_matrix v w a b); try assumption.
  destruct (gives_quotient v w a b Hv Hw) as (i & Ei & r & Er & W).
  intros st E1 E2. unfold bind, sympify, ret, lift_res. rewrite Ei, Er. exists r, st. auto.
Qed.
Lemma yields_pow v w a b : worth v a -> worth w b -> yields (pow O (LV v) (LV w)) (power K a b).
Proof.
  intros Hv Hw. destruct (f_Pow F v w a b Hv Hw) as (r & Er & W).
  intros st E1 E2. unfold pow, bind, sympify, ret, lift_res. rewrite Er. exists r, st. auto.
Qed.
Lemma yields_call1 f v a : In f fns1 -> worth v a -> yields (call O f [LV v]) (fn K f [a]).
Proof. intros Hf W. apply yields_lift. apply (f_call1 F); assumption. Qed.
Lemma yields_call2 f v w a b : In f fns2 -> worth v a -> worth w b -> yields (call O f [LV v; LV w]) (fn K f [a; b]).
Proof. intros Hf Hv Hw. apply yields_lift. apply (f_call2 F); assumption. Qed.
Lemma one_of_true f l : one_of f l = true -> In f l.
Proof. intro H. apply existsb_exists in H. destruct H as (x & Hx & E). apply str_eqb_eq in E. subst x. exact Hx. Qed.
Lemma trig_fns1 f : In f trig_names -> In f fns1.
Proof. intro H. apply in_or_app. left. exact H. Qed.
Lemma atrig_fns1 f : In f trig_names -> In (u "a" ++ f) fns1.
Proof. intro H. apply in_or_app. right. apply in_or_app. left. apply in_map_iff. exists f; auto. Qed.
Lemma arc_fns1 f g : In (f, g) arc_names -> In g fns1.
Proof.
  intro H. apply one_of_true. cbv [arc_names map In fst snd] in H.
  repeat (destruct H as [[= <- <-]|H]; [vm_compute; reflexivity|]). destruct H.
Qed.

Lemma replace_comma s : replace (u ",") [] s = no_commas s.
Proof. apply replace_single_del. Qed.
Lemma replace_percent s : ~ In 92%N s -> replace (u "\%") [] (s ++ u "\%") = s.
Proof.
  intro N. unfold replace. change (u "\%") with [92; 37]%N. induction s as [|c s IH]; [reflexivity|].
  cbn [app replace_go starts_with]. destruct (N.eqb_spec 92 c) as [<-|_]; [exfalso; apply N; left; reflexivity|].
  cbn [andb]. rewrite IH; [reflexivity|]. intro H. apply N. right. exact H.
Qed.
Lemma decimal_chars s q : decimal s q -> ~ In 92%N s.
Proof.
  assert (D : forall l, Forall ascii_digit l -> ~ In 92%N l).
  { intros l Fl H. rewrite Forall_forall in Fl. specialize (Fl _ H). unfold ascii_digit in Fl. lia. }
  intros [l Fl _|a b Fa Fb _] H; [exact (D l Fl H)|].
  apply in_app_or in H. destruct H as [H|H]; [exact (D a Fa H)|]. destruct H as [H|H]; [discriminate|exact (D b Fb H)].
Qed.
Lemma no_commas_other c s : c <> 44%N -> In c s -> In c (no_commas s).
Proof. intros H Hi. apply filter_In. split; [exact Hi|]. destruct (N.eqb_spec c 44); [contradiction|reflexivity]. Qed.
Lemma number_value s q st : decimal (no_commas s) q ->
  exists v, number O s st = (Ret v, st) /\ worth v (of_Q K q) /\ o_number_class _ O v = true.
Proof.
  intro D. destruct (f_number F _ _ D) as (v & E & W & N). exists v. unfold number, lift_res. rewrite replace_comma, E. auto.
Qed.
Lemma numeral_conv d t v st : numeral_tree d t -> number O d st = (Ret v, st) -> conv O l2s t st = (Ret (LV v), st).
Proof.
  intros H E. induction H as [|t H IH].
  - cbn [conv]. unfold bind. rewrite E. reflexivity.
  - change (conv O l2s (TJuxt [t])) with (juxtapose O (conv O l2s) [t]). unfold juxtapose, bind. rewrite IH. reflexivity.
Qed.
Lemma ends_brace x : ends_with (u "\%") (x ++ u "}") = false.
Proof. unfold ends_with. rewrite rev_app_distr. reflexivity. Qed.
Lemma ends_percent x : ends_with (u "\%") (x ++ u "}\%") = true.
Proof. unfold ends_with. rewrite rev_app_distr. reflexivity. Qed.
Lemma firstn_drop {B} (l r : list B) : firstn (List.length (l ++ r) - List.length r) (l ++ r) = l.
Proof. rewrite app_length. replace (List.length l + List.length r - List.length r) with (List.length l) by lia. rewrite firstn_app, firstn_all, Nat.sub_diag. apply app_nil_r. Qed.
Lemma find_values name : lookup_s values name =
  match find (fun p => str_eqb (fst p) name) values with Some p => Some (snd p) | None => None end.
Proof. reflexivity. Qed.
Lemma variable_known name a (k : V -> M (globals V) (lv V)) b :
  variable_value name a -> (forall v, worth v a -> yields (k v) b) ->
  yields (
    values <- gets g_values ;; real <- gets g_real ;;
    v <- (match lookup_s values name with
        | Some (PSym v) => ret v
        | Some (PObj s) => lift_res (o_parse_expr _ O s)
        | Some PPlain => raise AttributeError
        | None => ret (o_symbol _ O (name ++ o_md5 _ O name) real)
        end) ;; k v) b.
Proof.
  intros Hv Hk st E1 E2. unfold bind at 1, gets at 1. rewrite E2. unfold bind at 1, gets.
  rewrite find_values. unfold variable_value in Hv. destruct (find _ values) as [[x p]|] eqn:Fi.
  - destruct p as [v| |]; try contradiction. cbn [snd]. unfold bind, ret. apply Hk; [|assumption|assumption].
    split; [|symmetry; exact Hv]. apply (f_values F x). apply find_some in Fi. apply Fi.
  - unfold bind, ret. apply Hk; try assumption. rewrite (f_hash F). subst a. apply (f_symbol F).
Qed.
Lemma yields_variable name a : variable_value name a -> yields (variable O (u "\variable{" ++ name ++ u "}")) a.
Proof.
  intro Hv. unfold variable. cbv zeta. rewrite app_assoc, ends_brace, <- app_assoc. cbv iota.
  change (skipn 10 (u "\variable{" ++ name ++ u "}")) with (name ++ u "}").
  assert (E : firstn (List.length (name ++ u "}") - 1) (name ++ u "}") = name) by exact (firstn_drop name (u "}")). rewrite E.
  apply variable_known with a; [exact Hv|]. intros v W. apply yields_ret, W.
Qed.
Lemma yields_variable_percent name a : variable_value name a ->
  yields (variable O (u "\variable{" ++ name ++ u "}\%")) (div K a (of_Q K 100)).
Proof.
  intro Hv. unfold variable. cbv zeta. rewrite app_assoc, ends_percent, <- app_assoc. cbv iota.
  change (skipn 10 (u "\variable{" ++ name ++ u "}\%")) with (name ++ u "}\%").
  assert (E : firstn (List.length (name ++ u "}\%") - 3) (name ++ u "}\%") = name) by exact (firstn_drop name (u "}\%")). rewrite E.
  apply variable_known with a; [exact Hv|]. intros v W.
  assert (W100 : worth (o_int V O 100) (of_Q K 100)) by apply (f_int F).
  destruct (gives_quotient v _ a _ W W100) as (i & Ei & r & Er & Wr).
  intros st E1 E2. unfold bind, lift_res. rewrite Ei, Er. exists r, st. auto.
Qed.

Lemma bare_text n x : bare n x -> is_imaginary n = false /\ atom_text n = x.
Proof.
  intros [s H|s|s]; split; try reflexivity. cbn [is_imaginary]. destruct (str_eqb s (u "I")) eqn:E; [|reflexivity].
  apply str_eqb_eq in E. contradiction.
Qed.
Lemma names_text n s x : names n s x -> is_imaginary n = false /\ atom_text n ++ subscript_text s = x.
Proof.
  intros [n' y B|n' y t c B E|n' y t c d r B E]; destruct (bare_text _ _ B) as [H <-]; (split; [exact H|]); cbn [subscript_text].
  - apply app_nil_r.
  - rewrite E. reflexivity.
  - rewrite E. reflexivity.
Qed.
Lemma yields_symbol name k b :
  (forall v, worth v (rho name) -> yields (k (v, None)) b) -> yields (bind (make_symbol O name) k) b.
Proof.
  intros H st E1 E2. unfold bind at 1, make_symbol, gets, bind. rewrite E1. cbn. apply H; try assumption. apply (f_symbol F).
Qed.
Lemma is_list_LV (v : V) : is_list (LV v) = false.
Proof. reflexivity. Qed.

Lemma one_of_In f l : In f l -> one_of f l = true.
Proof. intro H. apply existsb_exists. exists f. split; [exact H|apply str_eqb_refl]. Qed.
Lemma trig_facts f : In f trig_names ->
  one_of f arc3 = false /\ one_of f ar2 = false /\ str_eqb f (u "operatorname") = false /\ one_of f (map u ["log"; "ln"]%string) = false /\
  one_of f (map u ["exp"; "exponentialE"]%string) = false /\ one_of f (map u ["floor"; "det"]%string) = false /\ str_eqb f (u "ceil") = false.
Proof.
  intro H. cbv [trig_names map In] in H.
  repeat (destruct H as [<-|H]; [vm_compute; repeat split; reflexivity|]). destruct H.
Qed.
Lemma arc_facts f g : In (f, g) arc_names -> one_of f trig = false /\ one_of f (map u ["log"; "ln"]%string) = false /\
  (one_of f arc3 = true /\ u "a" ++ skipn 3 f = g \/ one_of f arc3 = false /\ one_of f ar2 = true /\ u "a" ++ skipn 2 f = g).
Proof.
  intro H. cbv [arc_names map In fst snd] in H.
  repeat (destruct H as [[= <- <-]|H]; [vm_compute; repeat split; first [left; split; reflexivity | right; repeat split; reflexivity]|]). destruct H.
Qed.

Lemma apply_log b x st : apply_func O (u "log") [] b x st =
  bind (call O (u "log") [x; match b with Some b => b | None => LInt 10 end]) (fun v => ret (Some v)) st.
Proof. destruct b; reflexivity. Qed.
Lemma apply_ln x st : apply_func O (u "ln") [] None x st = bind (call O (u "log") [x; LV (o_E V O)]) (fun v => ret (Some v)) st.
Proof. reflexivity. Qed.
Lemma apply_exp x st : apply_func O (u "exp") [] None x st = bind (call O (u "exp") [x]) (fun v => ret (Some v)) st.
Proof. reflexivity. Qed.
Lemma no_power f e x st : one_of f trig = false -> func_power O f (Some e) x None st = (Ret e, st).
Proof. intro H. unfold func_power. rewrite H. reflexivity. Qed.
Lemma conv_value : (forall t a, Reads t a -> yields (conv O l2s t) a) /\ (forall l a, ReadsAll l a -> yields (juxtapose O (conv O l2s) l) a).
Proof.
  apply Reads_both; intros; cbn [conv].
  - intros st E1 E2. destruct (number_value s q st H) as (v & E & W & _). unfold bind. rewrite E. exists v, st. auto.
  - intros st E1 E2. rewrite replace_percent.
    2:{ intro I. apply (decimal_chars _ _ H). apply no_commas_other; [discriminate|exact I]. }
    destruct (number_value s q st H) as (v & E & W & N). unfold bind. rewrite E.
    destruct (f_percent F v _ W N) as (w & Ew & Ww). unfold lift_res. rewrite Ew. exists w, st. auto.
  - destruct (names_text _ _ _ H) as [-> ->]. apply yields_symbol. intros v W. apply yields_ret, W.
  - destruct (names_text _ _ _ H) as [-> ->]. apply yields_symbol. intros v W.
    apply (yields_bind _ _ b); [assumption|]. intros w Ww. apply yields_pow; assumption.
  - change (is_imaginary (NLetter (u "I"))) with true. cbv iota. apply yields_ret, (f_I F).
  - apply yields_ret, (f_oo F).
  - apply yields_ret, (f_pi F).
  - apply yields_variable; assumption.
  - apply yields_variable_percent; assumption.
  - apply (yields_bind _ _ a); [assumption|intros v Hv]. apply (yields_bind _ _ b); [assumption|intros w Hw]. apply yields_do_add; assumption.
  - apply (yields_bind _ _ a); [assumption|intros v Hv]. apply (yields_bind _ _ b); [assumption|intros w Hw]. apply yields_do_sub; assumption.
  - apply (yields_bind _ _ a); [assumption|intros v Hv]. apply (yields_bind _ _ b); [assumption|intros w Hw]. apply yields_do_mul; assumption.
  - apply (yields_bind _ _ a); [assumption|intros v Hv]. apply (yields_bind _ _ b); [assumption|intros w Hw]. apply yields_do_div; assumption.
  - apply (yields_bind _ _ a); [assumption|intros v Hv]. apply (yields_bind _ _ b); [assumption|intros w Hw].
    intros st E1 E2. unfold do_mod, bind. rewrite (is_matrix_scalar w b st Hw). apply (yields_call2 (u "Mod") v w a b (one_of_true (u "Mod") fns2 eq_refl) Hv Hw st E1 E2).
  - apply (yields_bind _ _ a); [assumption|intros v Hv]. apply (yields_bind _ _ b); [assumption|intros w Hw]. apply yields_call2; [apply one_of_true; reflexivity|assumption|assumption].
  - unfold derivative. apply (yields_ext (bind (set_flags (Some false) (Some false)) (fun _ => x <- conv O l2s s;; y <- conv O l2s t;; do_div O x y))); [reflexivity|].
    apply yields_flags. intros _.
    apply (yields_bind _ _ a); [assumption|intros v Hv]. apply (yields_bind _ _ b); [assumption|intros w Hw]. apply yields_do_div; assumption.
  - apply yields_flags. intros _.
    apply (yields_bind _ _ a); [assumption|intros v Hv]. apply (yields_bind _ _ b); [assumption|intros w Hw]. apply yields_do_div; assumption.
  - apply (yields_bind _ _ a); [assumption|intros v Hv]. cbn [is_list].
    apply (yields_bind _ _ b); [assumption|intros w Hw]. apply yields_pow; assumption.
  - assumption.
  - apply (yields_bind _ _ a); [assumption|intros v Hv].
    intros st E1 E2. unfold do_neg, bind. rewrite (is_matrix_scalar v a st Hv). apply (yields_negate v a Hv st E1 E2).
  - assumption.
  - apply (yields_bind _ _ a); [assumption|intros v Hv]. cbn [is_list]. apply yields_call1; [apply one_of_true; reflexivity|assumption].
  - apply (yields_bind _ _ a); [assumption|intros v Hv]. apply yields_call1; [apply one_of_true; reflexivity|assumption].
  - apply (yields_bind _ _ a); [assumption|intros v Hv]. apply yields_call1; [apply one_of_true; reflexivity|assumption].
  - apply (yields_bind _ _ a); [assumption|intros v Hv]. apply yields_call1; [apply one_of_true; reflexivity|assumption].
  - apply (yields_bind _ _ a); [assumption|intros v Hv]. apply yields_pow; [assumption|apply (f_half F)].
  - apply (yields_bind _ _ a); [assumption|intros v Hv]. apply (yields_bind _ _ b); [assumption|intros w Hw].
    destruct (f_recip F w b Hw) as (i & Ei & Wi). intros st E1 E2. unfold bind, sympify, ret at 1, lift_res at 1. rewrite Ei.
    apply (yields_pow v i a _ Hv Wi st E1 E2).
  - assumption.
  - apply (yields_bind _ _ a); [assumption|intros v Hv].
    destruct (trig_facts f H) as (_ & _ & _ & -> & _).
    intros st E1 E2. unfold apply_func, func_power, opt_conv.
    destruct (trig_facts f H) as (-> & -> & -> & -> & -> & -> & ->).
    unfold bind, ret. change trig with trig_names. rewrite (one_of_In f trig_names H).
    destruct (yields_call1 f v a (trig_fns1 f H) Hv st E1 E2) as (w & s' & -> & W & X). exists w, s'. auto.
  - apply (yields_bind _ _ a); [assumption|intros v Hv].
    destruct (trig_facts f H) as (_ & _ & _ & -> & _).
    intros st E1 E2. unfold bind at 1, ret at 1. unfold apply_func.
    destruct (trig_facts f H) as (-> & -> & -> & -> & -> & -> & ->).
    unfold bind at 1, ret at 1. unfold opt_conv, bind at 1. unfold bind at 1.
    destruct (H3 st E1 E2) as (p & s1 & -> & Wp & E1' & E2'). unfold ret at 1.
    unfold func_power. change trig with trig_names. rewrite (one_of_In f trig_names H).
    destruct (f_minus_one F p b Wp) as (bm & Em & Hm & _). unfold bind at 1, lift_res at 1. rewrite Em.
    assert (bm = false) as -> by (destruct bm; [exfalso; apply H5, Hm; reflexivity|reflexivity]).
    unfold bind at 1, bind at 1. destruct (yields_call1 f v a (trig_fns1 f H) Hv s1 E1' E2') as (w & s' & -> & W & X1 & X2). unfold ret at 1.
    destruct (f_truthy F p b Wp) as (bt & Et & Ht). unfold bind at 1, lift_res. rewrite Et.
    assert (bt = true) as -> by (destruct bt; [reflexivity|exfalso; apply H4, Ht; reflexivity]). cbn [andb negb].
    apply (yields_pow w p _ _ W Wp s' X1 X2).
  - apply (yields_bind _ _ a); [assumption|intros v Hv].
    destruct (trig_facts f H) as (_ & _ & _ & -> & _).
    intros st E1 E2. unfold bind at 1, ret at 1. unfold apply_func.
    destruct (trig_facts f H) as (-> & -> & -> & -> & -> & -> & ->).
    unfold bind at 1, ret at 1. unfold opt_conv, bind at 1. unfold bind at 1. cbn [conv].
    destruct (number_value d 1 st H2) as (n1 & E & W1 & N1). unfold bind at 1. rewrite (numeral_conv d t n1 st H3 E).
    unfold do_neg, bind at 1. rewrite (is_matrix_scalar n1 _ st W1). unfold negate. rewrite N1.
    destruct (f_neg F n1 _ W1 N1) as (p & Ep & Wp & Np). unfold bind at 1, lift_res at 1. rewrite Ep. unfold ret at 1 2.
    unfold func_power. change trig with trig_names. rewrite (one_of_In f trig_names H).
    destruct (f_minus_one F p _ Wp) as (bm & Em & _ & Hm). unfold bind at 1, lift_res at 1. rewrite Em.
    rewrite (Hm Np eq_refl).
    unfold bind at 1, bind at 1. destruct (yields_call1 (u "a" ++ f) v a (atrig_fns1 f H) Hv st E1 E2) as (w & s' & -> & W & X1 & X2). unfold ret at 1.
    destruct (f_truthy F p _ Wp) as (bt & Et & Ht). unfold bind at 1, lift_res. rewrite Et. rewrite andb_false_r.
    exists w, s'. auto.
  - apply (yields_bind _ _ a); [assumption|intros v Hv].
    destruct (arc_facts f g H) as (T1 & -> & Hc).
    intros st E1 E2. unfold bind at 1, ret at 1. unfold apply_func, func_power, opt_conv. rewrite T1.
    destruct Hc as [[-> Eg]|(-> & -> & Eg)]; rewrite Eg.
    + unfold bind at 1, bind at 1. destruct (yields_call1 g v a (arc_fns1 f g H) Hv st E1 E2) as (w & s' & -> & W & X). cbn. exists w, s'. auto.
    + unfold bind at 1, bind at 1. destruct (yields_call1 g v a (arc_fns1 f g H) Hv st E1 E2) as (w & s' & -> & W & X). cbn. exists w, s'. auto.
  - apply (yields_bind _ _ a); [assumption|intros v Hv].
    intros st E1 E2. destruct (f_log10 F v a Hv) as (w & Ew & W). exists w, st. split; [|auto].
    change (one_of (u "log") (map u ["log"; "ln"]%string)) with true. cbv iota. cbn [opt_conv]. unfold bind at 1, ret at 1.
    unfold bind at 1. rewrite apply_log. unfold bind at 1, call, lift_res. rewrite Ew. unfold bind, ret. apply no_power. reflexivity.
  - apply (yields_bind _ _ a); [assumption|intros v Hv].
    intros st E1 E2. change (one_of (u "log") (map u ["log"; "ln"]%string)) with true. cbv iota. cbn [opt_conv]. unfold bind at 1, bind at 1.
    destruct (H2 st E1 E2) as (p & s1 & -> & Wp & E1' & E2'). unfold ret at 1.
    destruct (f_call2 F (u "log") v p a b (one_of_true (u "log") fns2 eq_refl) Hv Wp) as (w & Ew & W). exists w, s1. split; [|auto].
    unfold bind at 1. rewrite apply_log. unfold bind at 1, call, lift_res. rewrite Ew. unfold bind, ret. apply no_power. reflexivity.
  - apply (yields_bind _ _ a); [assumption|intros v Hv].
    intros st E1 E2. destruct (f_call2 F (u "log") v _ a _ (one_of_true (u "log") fns2 eq_refl) Hv (f_E F)) as (w & Ew & W). exists w, st. split; [|auto].
    change (one_of (u "ln") (map u ["log"; "ln"]%string)) with true. cbv iota. cbn [opt_conv]. unfold bind at 1, ret at 1.
    unfold bind at 1. rewrite apply_ln. unfold bind at 1, call, lift_res. rewrite Ew. unfold bind, ret. apply no_power. reflexivity.
  - apply (yields_bind _ _ a); [assumption|intros v Hv].
    intros st E1 E2. destruct (f_call1 F (u "exp") v a (one_of_true (u "exp") fns1 eq_refl) Hv) as (w & Ew & W). exists w, st. split; [|auto].
    change (one_of (u "exp") (map u ["log"; "ln"]%string)) with false. cbv iota. cbn [opt_conv]. unfold bind at 1, ret at 1.
    unfold bind at 1. rewrite apply_exp. unfold bind at 1, call, lift_res. rewrite Ew. unfold bind, ret. apply no_power. reflexivity.
  - cbn [opt_conv]. intros st E1 E2. destruct (f_exp1 F) as (w & Ew & W). exists w, st. split; [|auto].
    unfold call, bind, lift_res, ret. rewrite Ew. reflexivity.
  - cbn [opt_conv]. intros st E1 E2. unfold bind at 1, bind at 1. destruct (H0 st E1 E2) as (p & s1 & -> & Wp & E1' & E2').
    apply (yields_call1 (u "exp") p a (one_of_true (u "exp") fns1 eq_refl) Wp s1 E1' E2').
  - cbn [juxtapose]. apply (yields_bind _ _ a); [assumption|intros v Hv]. apply yields_ret, Hv.
  - cbn [juxtapose]. apply (yields_bind _ _ a); [assumption|intros v Hv].
    destruct l as [|t' l']; [inversion H1|].
    apply (yields_bind _ _ b); [assumption|]. intros w Hw. apply yields_do_mul; assumption.
Qed.
End Value.

(** A whole call *)
Theorem latex2sympy_value {A} (K : arithmetic A) V (O : LSympy V) den rho vs t a n s st :
  faithful K V den rho vs (o_md5 _ O) O -> o_parse _ O (prepare s) = Ret (MRel (RExpr t)) ->
  Reads K V den rho vs (o_md5 _ O) t a -> g_var st = [] ->
  exists v, fst (latex2sympy O (S n) s vs st) = Ret (LV v) /\ worth V den O v a.
Proof.
  intros F P R E. rewrite latex2sympy_head. unfold bind.
  destruct (head_rel Exact s vs st st) as (s1 & s1' & Hh & _ & Rl & Hs1); [split; cbn; reflexivity|].
  assert (g_var s1 = []) as E'. { revert Hh. unfold head, bind, gets, set_frac, set_values. intros [= <-]. exact E. }
  rewrite Hh. unfold rest, bind, lift_res. rewrite P. cbn [conv_rel].
  destruct (proj1 (conv_value K V den rho vs (o_md5 _ O) O F (latex2sympy O n)) t a R s1 E' Hs1) as (v & s2 & -> & W & _).
  exists v. auto.
Qed.
