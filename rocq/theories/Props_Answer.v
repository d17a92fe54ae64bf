(** Properties C91-C95: written answers, from their text to the verdict. *)
From Coq Require Import String List NArith ZArith QArith Qcanon Qabs Bool Lia Permutation.
From Verif Require Import PyStr NumTheory Regex Float64 FloatError Normalize Monad MonadTheory Split Eval Interval IntervalEval L2S L2SValue DemoL2S Grammar
  Parser ParserNum DemoSympy Arith LatexForm Answer Pipeline DecNorm AnswerNum DemoPipe.
Import ListNotations.
Local Close Scope Qc_scope. Local Close Scope Q_scope. Local Open Scope N_scope.
Local Ltac vm := vm_compute; reflexivity.
Local Ltac written_wf := cbn; repeat split; try (unfold symbols, letters, greeks; cbn; tauto); repeat constructor; try discriminate.

(** ** C91 *)
Theorem C91_normal ints e : wf e -> plain e -> literal e = false -> string_normalize ints (latex e) = NStr (tight e).
Proof. exact (latex_normal ints e). Qed.
Print Assumptions C91_normal.
Theorem C91_fixed ints e : wf e -> plain e -> literal e = false -> string_normalize ints (tight e) = NStr (tight e).
Proof. exact (tight_normal ints e). Qed.
Print Assumptions C91_fixed.
Theorem C91_spaces e : wf e -> replace [32] [] (latex e) = tight e.
Proof. exact (tight_latex e). Qed.
Print Assumptions C91_spaces.
Definition e91 : arith := Bin Minus (Bin Times (Num (u "3")) (Scale (u "2") (Pow (Sym (u "x")) (Num (u "2"))))) (Frac (Fn (u "sin") (Sym (u "\alpha"))) (Sqrt (Bin Plus (Sym (u "n")) (Dec (u "0") (u "5"))))).
Example C91_ex : wf e91 /\ plain e91 /\ literal e91 = false /\ latex e91 = u "3\times 2x^{2}-\frac{\sin(\alpha)}{\sqrt{n+0.5}}" /\
  tight e91 = u "3\times2x^{2}-\frac{\sin(\alpha)}{\sqrt{n+0.5}}".
Proof.
  split; [written_wf|]. split; [|repeat split; vm]. cbn. repeat split; try discriminate; try (right; eexists; split; [reflexivity|vm_compute; tauto]); try (left; vm_compute; tauto); auto.
Qed.

(** ** C92 *)
Theorem C92_engine {St V S : Type} (IS : ISympy St V S) cmp ints iter iter_ok simpl lhs n e1 e2 s1 s2 st :
  wf e1 -> plain e1 -> literal e1 = false -> wf e2 -> plain e2 -> literal e2 = false -> written e1 s1 -> written e2 s2 ->
  is_equiv (with_intervals IS cmp ints iter iter_ok simpl lhs) (Datatypes.S n) (Some s1) (Some s2) st =
  if str_eqb (tight e1) (tight e2) then (Ret true, st) else are_equal_under_sympy (with_intervals IS cmp ints iter iter_ok simpl lhs) (tight e1) (tight e2) st.
Proof. exact (engine_decides IS cmp ints iter iter_ok simpl lhs n e1 e2 s1 s2 st). Qed.
Print Assumptions C92_engine.
Definition e92 : arith := Fn (u "cos") (Bin Plus (Abs (Sym (u "x"))) Pi).
Example C92_ex : wf e92 /\ plain e92 /\ literal e92 = false /\ written e92 (u "\cos(\left|x\right|+\pi)") /\ tight e91 <> tight e92.
Proof.
  split; [written_wf|]. split; [cbn; repeat split; try discriminate; right; eexists; split; [reflexivity|vm_compute; tauto]|]. split; [vm|]. split; [exact (W_latex e92)|vm_compute; discriminate].
Qed.

(** ** C93 *)
Theorem C93_numbers {V St E Ob Sym Num A V' S : Type} (O : LSympy V) depth (emb : lv V -> pyval E Ob) (SP : Sympy St E Ob Sym Num) num
  (K : arithmetic A) den rho (IS : ISympy (globals V * St) V' S) cmp ints iter iter_ok lhs n m k e1 e2 s1 s2 q1 q2 st :
  faithful K V den rho [] (o_md5 _ O) O -> (forall s t, parse_text s = Found t -> o_parse _ O s = Ret t) ->
  exact SP num -> answers SP num -> (forall v q, worth V den O v (of_Q K q) -> exists i, num (emb (LV v)) q i) ->
  depth = Datatypes.S n -> answer ints s1 e1 -> answer ints s2 e2 -> value K rho e1 = of_Q K q1 -> value K rho e2 = of_Q K q2 ->
  python_agrees SP num (tight e1) q1 -> python_agrees SP num (tight e2) q2 -> unset st ->
  exists b, fst (is_equiv (with_intervals IS cmp ints iter iter_ok (are_equal_with_simplify (joined O depth emb SP) (Datatypes.S m)) lhs) (Datatypes.S k) (Some s1) (Some s2) st) = Ret b /\
    (b = true <-> scalar_close q1 q2).
Proof.
  intros F HP X HA HN. exact (numbers_verdict O depth emb SP num K den rho F HP X HA HN IS cmp ints iter iter_ok lhs n m k e1 e2 s1 s2 q1 q2 st).
Qed.
Print Assumptions C93_numbers.
Theorem C93_written ints e s : wf e -> plain e -> literal e = false -> written e s -> answer ints s e.
Proof. exact (written_answer ints e s). Qed.
Print Assumptions C93_written.
Theorem C93_integer ints z : (- 2 ^ 53 <= z <= 2 ^ 53)%Z -> ints (dec_Z z) = dec_Z z -> answer ints (dec_Z z) (int_expr z).
Proof. exact (integer_answer ints z). Qed.
Print Assumptions C93_integer.
Theorem C93_decimal ints neg ds fs : numeral ds -> numeral fs ->
  (forall z, 1 # 10000000 < Qabs (magnitude ds fs - qn z) - slack (magnitude ds fs))%Q -> answer ints (dec_text neg ds fs) (dec_expr neg ds fs).
Proof. exact (decimal_answer ints neg ds fs). Qed.
Print Assumptions C93_decimal.
(* rational expressions without symbols are numbers *)
Definition sum93 : arith := Bin Plus (Frac (Num (u "1")) (Num (u "2"))) (Frac (Num (u "1")) (Num (u "3"))).
Definition quot93 : arith := Frac (Num (u "5")) (Num (u "6")).
Definition other93 : arith := Bin Minus (Num (u "1")) (Frac (Num (u "1")) (Num (u "7"))).
Lemma C93_met : faithful DemoArith ex (demo_den zero) (fun x => (zero x, false)) [] (o_md5 _ DO) DO /\ (forall s t, parse_text s = Found t -> o_parse _ DO s = Ret t) /\
  exact DS near /\ answers DS near /\ (forall v q, worth ex (demo_den zero) DO v (of_Q DemoArith q) -> exists i, near (demo_emb (LV v)) q i).
Proof.
  split; [apply demo_faithful|]. split; [exact demo_parse|]. split; [apply near_exact|]. split; [apply near_answers|]. intros v q H. exact (near_worth _ v q H).
Qed.
Definition start93 : globals ex * stream := (fresh, []).
Lemma C93_demo {V' S} (IS : ISympy (globals ex * stream) V' S) cmp ints iter iter_ok lhs e1 e2 s1 s2 q1 q2 :
  answer ints s1 e1 -> answer ints s2 e2 -> symbol_free e1 = true -> symbol_free e2 = true -> value QcArith zero e1 = Q2Qc q1 -> value QcArith zero e2 = Q2Qc q2 ->
  exists b, fst (is_equiv (with_intervals IS cmp ints iter iter_ok (whole 3 3) lhs) 3 (Some s1) (Some s2) start93) = Ret b /\ (b = true <-> scalar_close q1 q2).
Proof.
  intros A1 A2 F1 F2 V1 V2. destruct C93_met as (M1 & M2 & M3 & M4 & M5).
  exact (C93_numbers DO 4 demo_emb DS near DemoArith (demo_den zero) (fun x => (zero x, false)) IS cmp ints iter iter_ok lhs 3 3 2 e1 e2 s1 s2 q1 q2 start93
    M1 M2 M3 M4 M5 eq_refl A1 A2 (demo_number e1 q1 F1 V1) (demo_number e2 q2 F2 V2) (demo_python _ _) (demo_python _ _) eq_refl).
Qed.
Example C93_ex {V' S} (IS : ISympy (globals ex * stream) V' S) cmp ints iter iter_ok lhs :
  fst (is_equiv (with_intervals IS cmp ints iter iter_ok (whole 3 3) lhs) 3 (Some (u "\frac{1}{2}+\frac{1}{3}")) (Some (u "\frac{5}{6}")) start93) = Ret true.
Proof.
  destruct (C93_demo IS cmp ints iter iter_ok lhs sum93 quot93 (u "\frac{1}{2}+\frac{1}{3}") (u "\frac{5}{6}") (5 # 6) (5 # 6)) as (b & -> & H); try vm.
  - apply C93_written; [written_wf|cbn; repeat split; discriminate|vm|exact (W_latex sum93)].
  - apply C93_written; [written_wf|cbn; repeat split|vm|exact (W_latex quot93)].
  - f_equal. apply H. left. reflexivity.
Qed.
Lemma point_eight z : (1 # 10000000 < Qabs (magnitude (u "0") (u "857") - qn z) - slack (magnitude (u "0") (u "857")))%Q.
Proof.
  destruct z as [|p]; [vm|]. assert (E : (magnitude (u "0") (u "857") == 857 # 1000)%Q) by vm. assert (1 <= qn (N.pos p))%Q by (change 1%Q with (qn 1); apply qn_le; lia).
  setoid_replace (slack (magnitude (u "0") (u "857"))) with ((857 # 1000) / two 50)%Q by vm. rewrite E, Qabs_neg by Lqa.lra.
  assert ((857 # 1000) / two 50 <= 1 # 1000)%Q by (vm_compute; discriminate). set (s := ((857 # 1000) / two 50)%Q) in *. clearbody s. Lqa.lra.
Qed.
Example C93_ex2 {V' S} (IS : ISympy (globals ex * stream) V' S) cmp ints iter iter_ok lhs :
  fst (is_equiv (with_intervals IS cmp ints iter iter_ok (whole 3 3) lhs) 3 (Some (u "1-\frac{1}{7}")) (Some (u "0.857")) start93) = Ret true /\
  fst (is_equiv (with_intervals IS cmp ints iter iter_ok (whole 3 3) lhs) 3 (Some (u "\frac{5}{6}")) (Some (u "0.857")) start93) = Ret false.
Proof.
  split.
  - destruct (C93_demo IS cmp ints iter iter_ok lhs other93 (Dec (u "0") (u "857")) (u "1-\frac{1}{7}") (u "0.857") (6 # 7) (857 # 1000)) as (b & -> & H); try vm.
    + apply C93_written; [written_wf|cbn; repeat split; discriminate|vm|exact (W_latex other93)].
    + apply (C93_decimal ints false (u "0") (u "857")); [split; [repeat constructor; vm_compute; intuition discriminate|discriminate]..|exact point_eight].
    + f_equal. apply H. right. right. right. repeat split; vm.
  - destruct (C93_demo IS cmp ints iter iter_ok lhs quot93 (Dec (u "0") (u "857")) (u "\frac{5}{6}") (u "0.857") (5 # 6) (857 # 1000)) as (b & -> & H); try vm.
    + apply C93_written; [written_wf|cbn; repeat split|vm|exact (W_latex quot93)].
    + apply (C93_decimal ints false (u "0") (u "857")); [split; [repeat constructor; vm_compute; intuition discriminate|discriminate]..|exact point_eight].
    + f_equal. destruct b; [exfalso|reflexivity]. destruct (proj1 H eq_refl) as [X|[[X _]|[[X _]|(_ & _ & X)]]]; vm_compute in X; try discriminate X; apply X; reflexivity.
Qed.

(** ** C94 *)
Theorem C94_error neg D k : k <> 0 -> (decq D k < qn (10 ^ 300))%Q ->
  exists m e, float_of_dec neg D (- Z.of_N k) = FFin neg m e /\ (Qabs (fval m e - decq D k) <= decq D k * two (- 53) + two (- 1075))%Q.
Proof. exact (dec_error neg D k). Qed.
Print Assumptions C94_error.
Theorem C94_kept ints neg ds fs : numeral ds -> numeral fs ->
  (forall z, 1 # 10000000 < Qabs (magnitude ds fs - qn z) - slack (magnitude ds fs))%Q ->
  string_normalize ints (dec_text neg ds fs) = NStr (dec_text neg ds fs).
Proof. exact (decimal_kept ints neg ds fs). Qed.
Print Assumptions C94_kept.
Theorem C94_meaning ds fs : fs <> [] -> (magnitude ds fs == dec_fraction ds fs)%Q.
Proof. exact (magnitude_fraction ds fs). Qed.
Print Assumptions C94_meaning.
Example C94_ex : (forall z, 1 # 10000000 < Qabs (magnitude (u "0") (u "857") - qn z) - slack (magnitude (u "0") (u "857")))%Q /\
  string_normalize (fun s => s) (u "-0.857") = NStr (u "-0.857").
Proof. split; [exact point_eight|vm]. Qed.

(** ** C95 *)
Theorem C95_rounded ints neg ds fs z : numeral ds -> numeral fs ->
  (Qabs (magnitude ds fs - qn z) + slack (magnitude ds fs) <= 1 # 10000000)%Q ->
  string_normalize ints (dec_text neg ds fs) = NStr (ints (dec_Z (signed neg z))).
Proof. exact (decimal_rounded ints neg ds fs z). Qed.
Print Assumptions C95_rounded.
Theorem C95_accepted (W : World) n neg ds fs z st : numeral ds -> numeral fs ->
  (Qabs (magnitude ds fs - qn z) + slack (magnitude ds fs) <= 1 # 10000000)%Q ->
  is_equiv W (S n) (Some (dec_text neg ds fs)) (Some (dec_Z (signed neg z))) st = (Ret true, st).
Proof. exact (near_integer_accepted W n neg ds fs z st). Qed.
Print Assumptions C95_accepted.
Theorem C95_conflated (W : World) n neg ds fs ds' fs' z st : numeral ds -> numeral fs -> numeral ds' -> numeral fs' ->
  (Qabs (magnitude ds fs - qn z) + slack (magnitude ds fs) <= 1 # 10000000)%Q -> (Qabs (magnitude ds' fs' - qn z) + slack (magnitude ds' fs') <= 1 # 10000000)%Q ->
  is_equiv W (S n) (Some (dec_text neg ds fs)) (Some (dec_text neg ds' fs')) st = (Ret true, st).
Proof. exact (near_integers_conflated W n neg ds fs ds' fs' z st). Qed.
Print Assumptions C95_conflated.
Example C95_ex : (Qabs (magnitude (u "0") (u "00000009") - qn 0) + slack (magnitude (u "0") (u "00000009")) <= 1 # 10000000)%Q /\
  string_normalize (fun s => s) (u "-0.00000009") = NStr (u "0") /\ string_normalize (fun s => s) (u "2.99999995") = NStr (u "3").
Proof. split; [vm_compute; discriminate|split; vm]. Qed.

(** ** C23, continued: the first of the two readings of a percentage is the hundredth, correctly rounded *)
Theorem C23_hundredth neg m e : (fval m e < two 1024)%Q ->
  exists m' e', div100 (FFin neg m e) = FFin neg m' e' /\ (Qabs (fval m' e' - fval m e / 100) <= fval m e / 100 * two (- 53) + two (- 1075))%Q.
Proof. exact (div100_error neg m e). Qed.
Print Assumptions C23_hundredth.
Example C23_hundredth_ex : (fval 7036874417766400 (-49) < two 1024)%Q /\ (fval 7036874417766400 (-49) == 25 # 2)%Q /\ div100 (FFin true 7036874417766400 (-49)) = FFin true 4503599627370496 (-55) /\
  (fval 4503599627370496 (-55) == 1 # 8)%Q.
Proof. repeat split; vm_compute; reflexivity. Qed.
