(** The verdict on complex numbers (type_evaluations.py:25-53): from the written numbers to the engine. *)
From Coq Require Import String List NArith ZArith Bool Lia Arith Permutation.
From Verif Require Import PyStr PyStrTheory NumTheory Regex Normalize NormTheory Monad MonadTheory Split SplitTheory Eval EvalTheory EvalTheory2
  Interval IntervalEval NormAlg Arith LatexForm Imaginary Answer TypeEval Reprint.
Import ListNotations.
Local Open Scope N_scope.

(** * Specification *)
(** A complex number: a real part and an imaginary part with their signs, or an imaginary part alone; no numeral before the unit stands for one *)
Inductive cnum := Cx (neg : bool) (re : arith) (minus : bool) (im : pystr) | Ci (neg : bool) (im : pystr).
Definition real_part (e : arith) : Prop := match e with Num ds => numeral ds | Dec ds fs => numeral ds /\ numeral fs | _ => False end.
Definition cx_wf (c : cnum) : Prop :=
  match c with Cx _ re _ im => real_part re /\ (im = [] \/ numeral im) | Ci _ im => im = [] \/ numeral im end.
(** what is written before the unit *)
Definition cx_front (c : cnum) : pystr :=
  match c with
  | Cx neg re minus im => (if neg then u "-" else []) ++ tight re ++ (if minus then u "-" else u "+") ++ im
  | Ci neg im => (if neg then u "-" else []) ++ im
  end.
Definition cx_text (unit : pystr) (c : cnum) : pystr := cx_front c ++ unit.

(** * Proof *)
Definition root : arith := Sqrt (Neg (Num (u "1"))).
Definition imag_part (im : pystr) : arith := match im with [] => root | _ => Scale im root end.
Definition cx_expr (c : cnum) : arith :=
  match c with
  | Cx neg re minus im => Bin (if minus then Minus else Plus) (if neg then Neg re else re) (imag_part im)
  | Ci neg im => if neg then Neg (imag_part im) else imag_part im
  end.
Lemma tight_imag im : tight (imag_part im) = im ++ u "\sqrt{-1}".
Proof. destruct im; reflexivity. Qed.
Lemma cx_tight c : cx_wf c -> tight (cx_expr c) = cx_text (u "\sqrt{-1}") c.
Proof.
  unfold cx_text. destruct c as [neg re minus im|neg im]; cbn [cx_wf cx_expr cx_front].
  - intros [R _]. rewrite <- !app_assoc, <- tight_imag.
    assert (Hre : prec re = 6%nat) by (destruct re; try contradiction R; reflexivity).
    assert (Him : exists k, prec (imag_part im) = S k) by (destruct im; [exists 5%nat|exists 2%nat]; reflexivity). destruct Him as [k Him].
    unfold tight. destruct minus, neg; cbn [body op_prec op_latex prec Nat.leb]; rewrite ?Hre, ?Him; cbn [Nat.leb app]; rewrite <- ?app_assoc; reflexivity.
  - intros _. rewrite <- app_assoc, <- tight_imag. destruct neg; [|reflexivity]. destruct im; reflexivity.
Qed.
Lemma imag_wf im : im = [] \/ numeral im -> wf (imag_part im) /\ plain (imag_part im).
Proof.
  assert (D : numeral (u "1")) by (split; [repeat constructor; vm_compute; intuition discriminate|discriminate]).
  intros [->|H]; [split; [exact D|exact I]|]. destruct im as [|c im]; [destruct H as [_ H]; congruence|]. split; [split; [exact H|exact D]|split; [exact I|reflexivity]].
Qed.
Lemma cx_ok c : cx_wf c -> wf (cx_expr c) /\ plain (cx_expr c) /\ literal (cx_expr c) = false.
Proof.
  destruct c as [neg re minus im|neg im]; cbn [cx_wf cx_expr].
  - intros [R Hi]. destruct (imag_wf im Hi) as [W P].
    assert (wf re /\ plain re) as [Wr Pr] by (destruct re; try contradiction R; split; exact R || exact I).
    split; [destruct neg; split; assumption|]. split; [|destruct neg, minus; reflexivity].
    destruct minus, neg; cbn [plain]; repeat split; try assumption; try discriminate; intro X; vm_compute in X; discriminate X.
  - intro Hi. destruct (imag_wf im Hi) as [W P]. destruct neg; (split; [exact W|split; [exact P|destruct im; reflexivity]]).
Qed.
(** characters of the front *)
Definition plain_char (c : N) : bool := is_digit c && (48 <=? c) && (c <=? 57) || mem_cp [43; 45; 46] c.
Lemma digit_plain c : ascii_digit c -> plain_char c = true.
Proof.
  unfold ascii_digit. intro H. assert (c = 48 \/ c = 49 \/ c = 50 \/ c = 51 \/ c = 52 \/ c = 53 \/ c = 54 \/ c = 55 \/ c = 56 \/ c = 57) as X by lia.
  repeat destruct X as [->|X]; try reflexivity. subst c. reflexivity.
Qed.
Lemma numeral_plain ds : ds = [] \/ numeral ds -> Forall (fun c => plain_char c = true) ds.
Proof. intros [->|[F _]]; [constructor|]. rewrite Forall_forall in *. intros c Hc. apply digit_plain, F, Hc. Qed.
Lemma front_plain c : cx_wf c -> Forall (fun x => plain_char x = true) (cx_front c).
Proof.
  assert (B : forall neg : bool, Forall (fun x => plain_char x = true) (if neg then u "-" else [])) by (intros []; repeat constructor).
  assert (B' : forall neg : bool, Forall (fun x => plain_char x = true) (if neg then u "-" else u "+")) by (intros []; repeat constructor).
  destruct c as [neg re minus im|neg im]; cbn [cx_wf cx_front].
  - intros [R Hi]. apply Forall_app. split; [apply B|]. apply Forall_app. split; [|apply Forall_app; split; [apply B'|apply numeral_plain, Hi]].
    destruct re; try contradiction R; unfold tight; cbn [body].
    + apply numeral_plain. right. exact R.
    + destruct R as [R1 R2]. apply Forall_app. split; [apply numeral_plain; right; exact R1|]. apply Forall_app. split; [repeat constructor|apply numeral_plain; right; exact R2].
  - intro Hi. apply Forall_app. split; [apply B|apply numeral_plain, Hi].
Qed.
Lemma plain_not s x : Forall (fun c => plain_char c = true) s -> plain_char x = false -> ~ In x s.
Proof. intros F E H. rewrite Forall_forall in F. rewrite (F x H) in E. discriminate. Qed.
Lemma imag_front s : Forall (fun c => plain_char c = true) s -> forall p, (s = [] -> unit_at p None = true) -> imaginary p (s ++ [105]) = s ++ u "\sqrt{-1}".
Proof.
  induction s as [|c s IH]; intros F p Hp.
  - cbn [app imaginary hd_error]. rewrite (Hp eq_refl). reflexivity.
  - inversion F as [|? ? Hc F']; subst. cbn [app imaginary]. assert (Ne : (c =? 105) = false) by (destruct (N.eqb_spec c 105) as [->|]; [discriminate Hc|reflexivity]).
    rewrite Ne. cbn [andb app]. f_equal. apply IH; [exact F'|]. intros _. unfold unit_at, wordy, after_digit, plain_char in *.
    destruct (is_digit c) eqn:D; [rewrite orb_true_r; reflexivity|]. cbn [andb orb] in Hc. cbn in Hc.
    destruct (N.eqb_spec c 43) as [->|]; [reflexivity|]. destruct (N.eqb_spec c 45) as [->|]; [reflexivity|]. destruct (N.eqb_spec c 46) as [->|]; [reflexivity|]. discriminate Hc.
Qed.
Definition units : list pystr := [u "i"; u "I"; u "\sqrt{-1}"].
Lemma cx_read c unit : cx_wf c -> In unit units -> str_to_complex (cx_text unit c) = cx_text (u "\sqrt{-1}") c.
Proof.
  intros W H. pose proof (front_plain c W) as F. rewrite to_complex. unfold cx_text.
  assert (E : existsb (N.eqb 73) (cx_front c) = false).
  { apply not_true_is_false. intro X. apply existsb_exists in X. destruct X as (x & Hx & Ex). apply N.eqb_eq in Ex. subst x. exact (plain_not _ 73 F eq_refl Hx). }
  rewrite existsb_app, E. destruct H as [<-|[<-|[<-|[]]]]; cbn [orb].
  - change (existsb (N.eqb 73) (u "i")) with false. cbv iota. apply (imag_front _ F). intros _. reflexivity.
  - change (existsb (N.eqb 73) (u "I")) with true. cbv iota. rewrite flat_map_app. f_equal.
    clear W E. induction (cx_front c) as [|x s IH]; [reflexivity|]. inversion F as [|? ? Hx F']; subst. cbn [flat_map]. destruct (N.eqb_spec x 73) as [->|]; [discriminate Hx|].
    cbn [app]. rewrite (IH F'). reflexivity.
  - change (existsb (N.eqb 73) (u "\sqrt{-1}")) with false. cbv iota. apply imag_absent. intro X. apply in_app_or in X. destruct X as [X|X]; [exact (plain_not _ 105 F eq_refl X)|].
    vm_compute in X. intuition discriminate.
Qed.
Lemma cx_replaced c : cx_wf c -> replace (u "\sqrt{-1}") (u "I") (cx_text (u "\sqrt{-1}") c) = cx_text (u "I") c.
Proof.
  intro W. unfold cx_text. rewrite replace_over.
  - reflexivity.
  - intros x r E. injection E as <- _. exact (plain_not _ 92 (front_plain c W) eq_refl).
  - discriminate.
Qed.
Lemma plain_balance s : Forall (fun c => plain_char c = true) s -> balance s = 0%Z.
Proof.
  intro F. apply atomic_balance. rewrite Forall_forall in F. intros c Hc. specialize (F c Hc). unfold is_open, is_close.
  repeat match goal with |- context [c =? ?n] => destruct (N.eqb_spec c n); [subst c; discriminate F|] end. split; reflexivity.
Qed.
Lemma cx_single c : cx_wf c -> single (cx_text (u "I") c).
Proof.
  intro W. pose proof (front_plain c W) as F. unfold cx_text. split; [destruct (cx_front c); discriminate|]. split; [|split; [|split]].
  - intro X. apply in_app_or in X. destruct X as [X|[X|[]]]; [exact (plain_not _ 44 F eq_refl X)|discriminate X].
  - rewrite balance_app, (plain_balance _ F). reflexivity.
  - left. destruct (cx_front c) as [|x s] eqn:E; [exists 73, []; split; [reflexivity|lia]|]. exists x, (s ++ u "I"). split; [reflexivity|].
    inversion F as [|? ? Hx _]; subst. repeat split; intros ->; discriminate Hx.
  - unfold str_is_mat. apply not_true_is_false. intro X. apply contains_spec in X. destruct X as (p & q & E).
    assert (In 109 (cx_front c ++ u "I")) as Y by (rewrite E; apply in_or_app; right; left; reflexivity).
    apply in_app_or in Y. destruct Y as [Y|[Y|[]]]; [exact (plain_not _ 109 F eq_refl Y)|discriminate Y].
Qed.

Section Verdict.
Context {St V S : Type}.
Variable IS : ISympy St V S.
Variable cmp : S -> S -> M St bool.
Variable ints : pystr -> pystr.
Variable iter : list pystr -> list pystr.
Variable iter_ok : forall l, Permutation (iter l) (nodup str_eq_dec l).
Variable simpl : pystr -> pystr -> M St bool.
Variable lhs : pystr -> M St unit.
Notation W := (with_intervals IS cmp ints iter iter_ok simpl lhs).
Lemma single_latex rec s1 s2 st : single s1 -> single s2 -> is_latex_equiv W rec s1 s2 st = are_equal_under_sympy W s1 s2 st.
Proof.
  intros (N1 & C1 & B1 & U1 & M1) (N2 & C2 & B2 & U2 & M2). unfold is_latex_equiv. destruct s2 as [|c2 s2]; [congruence|].
  unfold possible_tuple. rewrite (split_plain _ C1 B1 U1), (split_plain _ C2 B2 U2), M1, M2.
  destruct (has_bracket s1); unfold bind; [rewrite (no_intervals IS cmp ints iter iter_ok simpl lhs _ _ st C1 C2)|]; unfold lift, ret; cbn [fst snd]; rewrite !str_eqb_refl; reflexivity.
Qed.
Lemma cx_normal c unit : cx_wf c -> In unit units -> normalize W (str_to_complex (cx_text unit c)) = NStr (cx_text (u "\sqrt{-1}") c).
Proof.
  intros Wc H. rewrite (cx_read c unit Wc H). rewrite <- (cx_tight c Wc). unfold normalize. cbn [int_str with_intervals]. destruct (cx_ok c Wc) as (A & B & C).
  exact (tight_normal ints (cx_expr c) A B C).
Qed.
Lemma sympy_total s1 s2 st : match fst (are_equal_under_sympy W s1 s2 st) with Ret _ => True | Raise _ => False end.
Proof. unfold are_equal_under_sympy, try_bare. destruct (bind _ _ st) as [[b|e] st']; exact I. Qed.
Theorem complex_verdict n c1 c2 unit1 unit2 st : cx_wf c1 -> cx_wf c2 -> In unit1 units -> In unit2 units ->
  is_equiv_complex W n (cx_text unit1 c1) (cx_text unit2 c2) st = are_equal_under_sympy W (cx_text (u "I") c1) (cx_text (u "I") c2) st.
Proof.
  intros W1 W2 H1 H2. unfold is_equiv_complex. rewrite (cx_normal c1 unit1 W1 H1), (cx_normal c2 unit2 W2 H2). unfold str_method, bind, ret.
  rewrite (cx_replaced c1 W1), (cx_replaced c2 W2). unfold try_bare. rewrite (single_latex _ _ _ st (cx_single c1 W1) (cx_single c2 W2)).
  unfold are_equal_under_sympy, try_bare. destruct (bind _ _ st) as [[b|e] st']; reflexivity.
Qed.
(** The hint "Complex" asks the engine about the numbers; only when it refuses are the texts compared as usual *)
Theorem complex_hint n c1 c2 unit1 unit2 st : cx_wf c1 -> cx_wf c2 -> In unit1 units -> In unit2 units ->
  is_equiv_type W n (cx_text unit1 c1) (cx_text unit2 c2) (Some (u "Complex")) st =
  match are_equal_under_sympy W (cx_text (u "I") c1) (cx_text (u "I") c2) st with
  | (Ret true, st') => (Ret true, st')
  | (_, st') => is_equiv W n (Some (cx_text unit1 c1)) (Some (cx_text unit2 c2)) st'
  end.
Proof.
  intros W1 W2 H1 H2. unfold is_equiv_type. change (checks W n) with
    [ (u "Complex", fun a b => bind (is_equiv_complex W n a b) (fun r => ret (CBool r))); (u "Set", is_equiv_set W n);
      (u "Vector", is_equiv_vector W n); (u "Function", fun a b => bind (is_equiv_function W n a b) (fun r => ret (CBool r))) ].
  cbn [run_checks]. change (contains (u "Complex") (u "Complex")) with true. change (contains (u "Set") (u "Complex")) with false.
  change (contains (u "Vector") (u "Complex")) with false. change (contains (u "Function") (u "Complex")) with false. cbv iota.
  unfold bind at 1 2 3. rewrite (complex_verdict n c1 c2 unit1 unit2 st W1 W2 H1 H2).
  pose proof (sympy_total (cx_text (u "I") c1) (cx_text (u "I") c2) st) as T.
  destruct (are_equal_under_sympy W _ _ st) as [[b|e] st']; [|contradiction T]. destruct b; reflexivity.
Qed.
End Verdict.

(** A broken number is refused, whatever the engine is *)
Theorem complex_broken W n s1 s2 a b st : normalize W (str_to_complex s1) = NStr a -> normalize W (str_to_complex s2) = NStr b ->
  let a' := replace (u "\sqrt{-1}") (u "I") a in let b' := replace (u "\sqrt{-1}") (u "I") b in
  has_bracket a' = false -> balance a' <> 0%Z \/ balance b' <> 0%Z ->
  is_equiv_complex W n s1 s2 st = (Ret false, st).
Proof.
  intros E1 E2 a' b' B H. unfold is_equiv_complex. rewrite E1, E2. unfold str_method, bind at 1 2, ret. fold a' b'. unfold try_bare.
  enough (exists r, is_latex_equiv W (is_equiv_str W n) a' b' st = (r, st) /\ (r = Ret false \/ exists e, r = Raise e)) as (r & -> & [->|[e ->]]) by reflexivity.
  unfold is_latex_equiv. clearbody a' b'. destruct b' as [|c b']; [exists (Ret false); auto|]. rewrite B. unfold bind, ret. cbn [fst]. unfold possible_tuple, bind, lift.
  destruct (split_tuple a' None) as [x|e] eqn:S1; [|exists (Raise e); split; [reflexivity|right; exists e; reflexivity]].
  destruct (split_tuple (c :: b') None) as [y|e] eqn:S2; [|exists (Raise e); split; [reflexivity|right; exists e; reflexivity]].
  exfalso. destruct H as [H|H].
  - rewrite (proj2 (split_tuple_raises a' None AssertionError) (conj eq_refl H)) in S1. discriminate S1.
  - rewrite (proj2 (split_tuple_raises (c :: b') None AssertionError) (conj eq_refl H)) in S2. discriminate S2.
Qed.
