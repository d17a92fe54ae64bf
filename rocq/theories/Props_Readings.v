(** Properties C114-C115: floats printed and read back; the verdict on answers with several readings (latex_normalize.py:60-120, math_evaluation.py). *)
From Coq Require Import String List NArith ZArith QArith Qcanon Qabs Bool Lia Permutation.
From Verif Require Import PyStr Spec NumTheory Regex Float64 FloatError FloatRound Normalize NormNum NormTime NormPct Monad MonadTheory Split Eval Interval IntervalEval L2S L2SValue DemoL2S Grammar
  Parser ParserNum DemoSympy Arith LatexForm Answer Pipeline DecNorm AnswerNum DemoPipe NormMixed Readings PctReads Props_Answer.
Import ListNotations.
Local Close Scope Qc_scope. Local Close Scope Q_scope. Local Open Scope N_scope.
Local Ltac vm := vm_compute; reflexivity.
Local Ltac digs := split; [repeat constructor; vm_compute; intuition discriminate|discriminate].

(** ** C114: the text of a float reads back as that float *)
Theorem C114_reads_back neg m e : double m e -> py_float (float_str (FFin neg m e)) = Some (FFin neg m e).
Proof. exact (FloatRepr.repr_read neg m e). Qed.
Print Assumptions C114_reads_back.
Theorem C114_stored s f : py_float s = Some f -> stored f /\ stored (div100 f).
Proof. exact (fun H => conj (read_stored s f H) (div100_stored f (read_stored s f H))). Qed.
Print Assumptions C114_stored.
Theorem C114_round_trip f : stored f -> exists g, py_float (float_str f) = Some g /\ same_double f g.
Proof. exact (stored_reads f). Qed.
Print Assumptions C114_round_trip.
Theorem C114_distinct f g : stored f -> stored g -> float_str f = float_str g -> same_double f g.
Proof. exact (texts_distinct f g). Qed.
Print Assumptions C114_distinct.
(** Between 1/6000 and 10^15 the text is a plain decimal, half a unit in the last place away at most. *)
Theorem C114_plain m e : double m e -> (1 # 6000 <= fval m e)%Q -> (fval m e < qn (10 ^ 15))%Q ->
  exists ds fs, numeral ds /\ numeral fs /\ float_str (FFin false m e) = dec_text false ds fs /\ (Qabs (fval m e - magnitude ds fs) <= magnitude ds fs * FloatError.two (- 53) + FloatError.two (- 1075))%Q.
Proof. exact (repr_near m e). Qed.
Print Assumptions C114_plain.
(* 0.1, the largest float, the smallest one, and 2^60 *)
Example C114_ex : double 7205759403792794 (-56) /\ float_str (FFin false 7205759403792794 (-56)) = u "0.1" /\
  double (2 ^ 53 - 1) 971 /\ float_str (FFin true (2 ^ 53 - 1) 971) = u "-1.7976931348623157e+308" /\
  double 1 (-1074) /\ float_str (FFin false 1 (-1074)) = u "5e-324" /\ double (2 ^ 52) 8 /\ float_str (FFin false (2 ^ 52) 8) = u "1.152921504606847e+18" /\
  py_float (u "1.152921504606847e+18") = Some (FFin false (2 ^ 52) 8) /\ (1 # 6000 <= fval 7205759403792794 (-56))%Q.
Proof.
  split; [left; split; [vm_compute; split; [discriminate|reflexivity]|lia]|]. split; [vm|]. split; [left; split; [vm_compute; split; [discriminate|reflexivity]|lia]|].
  split; [vm|]. split; [right; split; [vm_compute; split; reflexivity|reflexivity]|]. split; [vm|]. split; [left; split; [vm_compute; split; [discriminate|reflexivity]|lia]|].
  split; [vm|]. split; [vm|]. vm_compute. discriminate.
Qed.

(** ** C115: accepted exactly when some reading of the one is close to some reading of the other *)
Theorem C115_verdict {V St E Ob Sym Num A V' S : Type} (O : LSympy V) depth (emb : lv V -> pyval E Ob) (SP : Sympy St E Ob Sym Num) num
  (K : arithmetic A) den rho (IS : ISympy (globals V * St) V' S) cmp ints iter iter_ok lhs n m k s1 s2 l1 l2 st :
  faithful K V den rho [] (o_md5 _ O) O -> (forall s t, parse_text s = Found t -> o_parse _ O s = Ret t) ->
  exact SP num -> answers SP num -> (forall v q, worth V den O v (of_Q K q) -> exists i, num (emb (LV v)) q i) ->
  depth = Datatypes.S n -> reads ints s1 (map fst l1) -> reads ints s2 (map fst l2) -> Forall (worth_number SP num K rho) l1 -> Forall (worth_number SP num K rho) l2 -> unset st ->
  exists b, fst (is_equiv (with_intervals IS cmp ints iter iter_ok (are_equal_with_simplify (joined O depth emb SP) (Datatypes.S m)) lhs) (Datatypes.S k) (Some s1) (Some s2) st) = Ret b /\
    (b = true <-> exists p1 p2, In p1 l1 /\ In p2 l2 /\ scalar_close (snd p1) (snd p2)).
Proof.
  intros F HP X HA HN. exact (readings_verdict O depth emb SP num K den rho F HP X HA HN IS cmp ints iter iter_ok lhs n m k s1 s2 l1 l2 st).
Qed.
Print Assumptions C115_verdict.
Theorem C115_one ints s e : answer ints s e -> reads ints s [e].
Proof. exact (answer_reads ints s e). Qed.
Print Assumptions C115_one.
(** A percentage is read as its hundredth and as the number before the sign, both as decimals within rounding. *)
Theorem C115_decimal_percentage ints neg ds fs s : numeral ds -> numeral fs -> marked (dec_text neg ds fs) s -> In 37 s -> (1 # 50 <= magnitude ds fs)%Q -> (magnitude ds fs < qn (10 ^ 14))%Q ->
  exists d1 f1 d2 f2, numeral d1 /\ numeral f1 /\ numeral d2 /\ numeral f2 /\
    reads ints s [dec_expr neg d1 f1; dec_expr neg d2 f2] /\ close_to (magnitude d1 f1) (magnitude ds fs / 100) /\ close_to (magnitude d2 f2) (magnitude ds fs).
Proof. exact (decimal_pct ints neg ds fs s). Qed.
Print Assumptions C115_decimal_percentage.
Theorem C115_whole_percentage ints neg ds s : numeral ds -> marked ((if neg : bool then [45] else []) ++ ds) s -> In 37 s -> 0 < dec_value ds < 10 ^ 14 ->
  exists d1 f1 d2 f2, numeral d1 /\ numeral f1 /\ numeral d2 /\ numeral f2 /\
    reads ints s [dec_expr neg d1 f1; dec_expr neg d2 f2] /\ close_to (magnitude d1 f1) (qn (dec_value ds) / 100) /\ close_to (magnitude d2 f2) (qn (dec_value ds)).
Proof. exact (integer_pct ints neg ds s). Qed.
Print Assumptions C115_whole_percentage.
(** A numeral in another base is read as its digits and as its value; an afternoon hour modulo 12 with and without twelve more. *)
Theorem C115_other_base ints ds bs t : numeral ds -> base_written bs t -> reads ints (ds ++ 95 :: t) [Num ds; Num (dec_N (base_value (dec_value bs) ds))].
Proof. exact (base_reads ints ds bs t). Qed.
Print Assumptions C115_other_base.
Theorem C115_hour ints H k x : one_two H -> meridiem true x -> reads ints (H ++ spaces k ++ x) [Num (dec_N (num H mod 12)); Num (dec_N (num H mod 12 + 12))].
Proof. exact (hour_reads ints H k x). Qed.
Print Assumptions C115_hour.
(** Finding: a percentage and a hundred times that percentage are accepted for each other. *)
Theorem C115_hundredfold {V St E Ob Sym Num A V' S : Type} (O : LSympy V) depth (emb : lv V -> pyval E Ob) (SP : Sympy St E Ob Sym Num) num
  (K : arithmetic A) den rho (IS : ISympy (globals V * St) V' S) cmp ints iter iter_ok lhs n m k neg ds fs ds' fs' s s' st :
  faithful K V den rho [] (o_md5 _ O) O -> (forall s t, parse_text s = Found t -> o_parse _ O s = Ret t) ->
  exact SP num -> answers SP num -> (forall v q, worth V den O v (of_Q K q) -> exists i, num (emb (LV v)) q i) -> (forall q, opp K (of_Q K q) = of_Q K (- q)) ->
  depth = Datatypes.S n -> decimals_read SP num neg -> numeral ds -> numeral fs -> numeral ds' -> numeral fs' ->
  marked (dec_text neg ds fs) s -> In 37 s -> marked (dec_text neg ds' fs') s' -> In 37 s' ->
  (1 # 50 <= magnitude ds fs)%Q -> (magnitude ds fs < qn (10 ^ 12))%Q -> (magnitude ds' fs' == magnitude ds fs * 100)%Q -> unset st ->
  fst (is_equiv (with_intervals IS cmp ints iter iter_ok (are_equal_with_simplify (joined O depth emb SP) (Datatypes.S m)) lhs) (Datatypes.S k) (Some s) (Some s') st) = Ret true /\
  fst (is_equiv (with_intervals IS cmp ints iter iter_ok (are_equal_with_simplify (joined O depth emb SP) (Datatypes.S m)) lhs) (Datatypes.S k) (Some s') (Some s) st) = Ret true.
Proof.
  intros F HP X HA HN OQ. exact (hundredfold O depth emb SP num K den rho F HP X HA HN OQ IS cmp ints iter iter_ok lhs n m k neg ds fs ds' fs' s s' st).
Qed.
Print Assumptions C115_hundredfold.

Lemma C115_demo {V' S} (IS : ISympy (globals ex * stream) V' S) cmp ints iter iter_ok lhs s1 s2 l1 l2 :
  reads ints s1 (map fst l1) -> reads ints s2 (map fst l2) ->
  Forall (fun p => symbol_free (fst p) = true /\ value QcArith zero (fst p) = Q2Qc (snd p)) l1 -> Forall (fun p => symbol_free (fst p) = true /\ value QcArith zero (fst p) = Q2Qc (snd p)) l2 ->
  exists b, fst (is_equiv (with_intervals IS cmp ints iter iter_ok (whole 3 3) lhs) 3 (Some s1) (Some s2) start93) = Ret b /\
    (b = true <-> exists p1 p2, In p1 l1 /\ In p2 l2 /\ scalar_close (snd p1) (snd p2)).
Proof.
  intros R1 R2 G1 G2. destruct C93_met as (M1 & M2 & M3 & M4 & M5).
  assert (G : forall l, Forall (fun p => symbol_free (fst p) = true /\ value QcArith zero (fst p) = Q2Qc (snd p)) l -> Forall (worth_number DS near DemoArith (fun x => (zero x, false))) l).
  { intros l H. eapply Forall_impl; [|exact H]. intros p [F E]. split; [exact (demo_number _ _ F E)|apply demo_python]. }
  exact (C115_verdict DO 4 demo_emb DS near DemoArith (demo_den zero) (fun x => (zero x, false)) IS cmp ints iter iter_ok lhs 3 3 2 s1 s2 l1 l2 start93
    M1 M2 M3 M4 M5 eq_refl R1 R2 (G _ G1) (G _ G2) eq_refl).
Qed.
(* 25% against 1/4 and against 26; the digits of a numeral in base twelve; an hour *)
Definition quarter : list (arith * Q) := [(Dec (u "0") (u "25"), 1 # 4); (Dec (u "25") (u "0"), 25 # 1)]%Q.
Local Ltac each := try unfold quarter; repeat (apply Forall_cons; [split; [vm|first [vm|apply Qc_is_canon; vm]]|]); apply Forall_nil.
Definition fourth : arith := Frac (Num (u "1")) (Num (u "4")).
Lemma quarter_reads ints : reads ints (u "25\%") (map fst quarter).
Proof.
  split; [vm|]. split; [discriminate|]. split; [repeat constructor; try discriminate; vm_compute; intuition discriminate|]. intro x.
  assert (M : marked (u "25") (u "25\%")) by (cbn; repeat first [discriminate | constructor]).
  rewrite (normalize_pct ints (u "25") (u "25\%") (FFin false 7036874417766400 (-48))); [|exact M|cbn; tauto|vm].
  assert (float_str (div100 (FFin false 7036874417766400 (-48))) = u "0.25") as -> by vm. assert (float_str (FFin false 7036874417766400 (-48)) = u "25.0") as -> by vm. reflexivity.
Qed.
Example C115_ex1 {V' S} (IS : ISympy (globals ex * stream) V' S) cmp ints iter iter_ok lhs : ints (u "26") = u "26" ->
  fst (is_equiv (with_intervals IS cmp ints iter iter_ok (whole 3 3) lhs) 3 (Some (u "\frac{1}{4}")) (Some (u "25\%")) start93) = Ret true /\
  fst (is_equiv (with_intervals IS cmp ints iter iter_ok (whole 3 3) lhs) 3 (Some (u "26")) (Some (u "25\%")) start93) = Ret false.
Proof.
  intro I. split.
  - destruct (C115_demo IS cmp ints iter iter_ok lhs (u "\frac{1}{4}") (u "25\%") [(fourth, 1 # 4)%Q] quarter) as (b & -> & H).
    + apply C115_one, (C93_written ints fourth); [cbn; repeat split; repeat constructor; try discriminate; vm_compute; intuition discriminate|cbn; repeat split|vm|exact (W_latex fourth)].
    + apply quarter_reads.
    + each.
    + each.
    + f_equal. apply H. eexists _, _. split; [left; reflexivity|]. split; [left; reflexivity|]. left. vm.
  - destruct (C115_demo IS cmp ints iter iter_ok lhs (u "26") (u "25\%") [(int_expr 26, 26 # 1)%Q] quarter) as (b & -> & H).
    + apply C115_one, (C93_integer ints 26); [lia|exact I].
    + apply quarter_reads.
    + each.
    + each.
    + f_equal. destruct b; [exfalso|reflexivity]. destruct (proj1 H eq_refl) as (p1 & p2 & [<-|[]] & [<-|[<-|[]]] & C); destruct C as [X|[[X _]|[[_ X]|(_ & X & _)]]]; vm_compute in X; discriminate X.
Qed.
Example C115_ex2 {V' S} (IS : ISympy (globals ex * stream) V' S) cmp ints iter iter_ok lhs : ints (u "1021") = u "1021" ->
  fst (is_equiv (with_intervals IS cmp ints iter iter_ok (whole 3 3) lhs) 3 (Some (u "1021_{12}")) (Some (u "1021")) start93) = Ret true /\ base_value 12 (u "1021") = 1753.
Proof.
  intro I. split; [|vm]. destruct (C115_demo IS cmp ints iter iter_ok lhs (u "1021_{12}") (u "1021") [(Num (u "1021"), 1021 # 1); (Num (u "1753"), 1753 # 1)]%Q [(int_expr 1021, 1021 # 1)%Q]) as (b & -> & H).
  - apply (C115_other_base ints (u "1021") (u "12") (u "{12}")); [digs|apply (base_braces (u "12")); [repeat constructor; vm_compute; intuition discriminate|discriminate]].
  - apply C115_one, (C93_integer ints 1021); [lia|exact I].
  - each.
  - each.
  - f_equal. apply H. eexists _, _. split; [left; reflexivity|]. split; [left; reflexivity|]. left. vm.
Qed.
Example C115_ex3 : reads (fun x => x) (u "3 pm") [Num (u "3"); Num (u "15")] /\
  (1 # 50 <= magnitude (u "0") (u "25"))%Q /\ (magnitude (u "0") (u "25") < qn (10 ^ 12))%Q /\ (magnitude (u "25") (u "0") == magnitude (u "0") (u "25") * 100)%Q /\
  decimals_read DS near false /\ (forall q, opp DemoArith (of_Q DemoArith q) = of_Q DemoArith (- q)) /\ marked (u "0.25") (u "0.25%") /\ marked (u "25.0") (u "25.0\%").
Proof.
  split; [apply (C115_hour (fun x => x) (u "3") 1 (u "pm")); [split; [repeat constructor; vm_compute; intuition discriminate|left; reflexivity]|apply mer_bare; cbn; tauto]|].
  split; [vm_compute; discriminate|]. split; [vm|]. split; [vm|]. split; [intros ds fs _ _; apply demo_python|].
  split; [intro q; assert (H : (- Q2Qc q)%Qc = Q2Qc (- q)) by (apply Qc_is_canon; unfold Qcopp; cbn [this Q2Qc]; rewrite !Qred_correct; reflexivity); cbn; rewrite <- H; reflexivity|].
  split; cbn; repeat first [discriminate | constructor].
Qed.
