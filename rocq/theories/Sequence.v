(** is_equiv on written sequences: tuples, lists and bare comma-separated answers. *)
From Coq Require Import String List NArith ZArith QArith Bool Lia Arith Permutation.
From Verif Require Import PyStr PyStrTheory Spec Normalize Monad MonadTheory Split SplitTheory Eval EvalTheory EvalTheory2 Interval IntervalEval Grammar Parser ParserTheory ParserNum
  L2S L2STheory L2SState L2SValue Arith ArithParse LatexForm Answer SeqAuto SeqForm ParserMore Pipeline.
Import ListNotations.
Local Open Scope mon_scope.
Local Close Scope Q_scope.

(** ** The comparison keeps latex2sympy's globals *)
Section Safe.
Context {V St E Ob Sym Num : Type}.
Variable O : LSympy V.
Variable depth : nat.
Variable emb : lv V -> pyval E Ob.
Variable SP : Sympy St E Ob Sym Num.
Notation J := (joined O depth emb SP).
Definition safe {B} (m : M (globals V * St) B) : Prop := forall st, unset st -> unset (snd (m st)).
Lemma safe_right {B} (m : M St B) : safe (right m).
Proof. intros st U. unfold unset. rewrite right_keeps. exact U. Qed.
Lemma safe_ret {B} (b : B) : safe (ret b).
Proof. intros st U. exact U. Qed.
Lemma safe_raise {B} e : safe (@raise _ B e).
Proof. intros st U. exact U. Qed.
Lemma safe_bind {B C} (m : M (globals V * St) B) (f : B -> M (globals V * St) C) : safe m -> (forall b, safe (f b)) -> safe (bind m f).
Proof. intros Hm Hf st U. unfold bind. specialize (Hm st U). destruct (m st) as [[b|b] s]; [apply Hf, Hm|exact Hm]. Qed.
Lemma safe_try_bare {B} (m h : M (globals V * St) B) : safe m -> safe h -> safe (try_bare m h).
Proof. intros Hm Hh st U. unfold try_bare. specialize (Hm st U). destruct (m st) as [[b|b] s]; [exact Hm|apply Hh, Hm]. Qed.
Lemma safe_try_except {B} (m h : M (globals V * St) B) : safe m -> safe h -> safe (try_except m h).
Proof. intros Hm Hh st U. unfold try_except. specialize (Hm st U). destruct (m st) as [[b|b] s]; [exact Hm|]. destruct (is_Exception b); [apply Hh, Hm|exact Hm]. Qed.
Hint Resolve safe_right safe_ret safe_raise : safe.
Ltac sf := repeat first [ progress (intros) | solve [eauto with safe] | apply safe_right | apply safe_bind | apply safe_try_bare | apply safe_try_except
  | match goal with
    | |- safe (if ?b then _ else _) => destruct b
    | |- safe (match ?x with _ => _ end) => destruct x
    | |- safe (let '(_, _) := ?x in _) => destruct x
    end ].
Lemma safe_as_bool b : safe (as_bool b). Proof. destruct b; cbn [as_bool]; sf. Qed.
Hint Resolve safe_as_bool : safe.
Lemma safe_attr {B} (v : pyval E Ob) (m : M _ B) : safe m -> safe (attr v m). Proof. intro H. destruct v; cbn [attr]; sf. Qed.
Hint Resolve safe_attr : safe.
Lemma safe_zero v : safe (is_sympy_zero J v). Proof. unfold is_sympy_zero. sf. Qed.
Lemma safe_type v : safe (get_sympy_type J v). Proof. unfold get_sympy_type. sf. Qed.
Lemma safe_simplify v : safe (sympy_simplify J v). Proof. unfold sympy_simplify. apply safe_try_except; [apply safe_attr|]; sf. Qed.
Lemma safe_expand v w : safe (sympy_expand_equal J v w). Proof. unfold sympy_expand_equal. apply safe_try_except; [apply safe_attr, safe_attr|]; sf. Qed.
Lemma safe_abs v : safe (sympy_abs J v). Proof. unfold sympy_abs. sf. Qed.
Lemma safe_evalf v s : safe (sympy_evalf J v s). Proof. unfold sympy_evalf. apply safe_try_except; [apply safe_attr|]; sf. Qed.
Hint Resolve safe_zero safe_type safe_simplify safe_expand safe_abs safe_evalf : safe.
Lemma safe_smaller v t : safe (abs_smaller J v t). Proof. unfold abs_smaller. sf. Qed.
Hint Resolve safe_smaller : safe.
Lemma safe_number v : safe (op_is_number _ _ _ _ _ J v). Proof. apply safe_right. Qed.
Lemma safe_free v : safe (op_free_symbols _ _ _ _ _ J v). Proof. apply safe_right. Qed.
Lemma safe_integer v : safe (op_is_Integer _ _ _ _ _ J v). Proof. apply safe_right. Qed.
Hint Resolve safe_number safe_free safe_integer : safe.
Lemma safe_diff v w : safe (diff_equal J v w). Proof. unfold diff_equal. sf. Qed.
Lemma safe_draw r l : safe (draw J r l). Proof. induction l; cbn [draw]; sf. Qed.
Hint Resolve safe_diff safe_draw : safe.
Lemma safe_sample r v w l n : safe (sample J r v w l n). Proof. induction n; cbn [sample]; sf. Qed.
Hint Resolve safe_sample : safe.
Lemma safe_numerical r v w : safe (numerical_equal J r v w). Proof. unfold numerical_equal. sf. Qed.
Hint Resolve safe_numerical : safe.
Lemma safe_scalar v w : safe (scalar_equal J v w). Proof. unfold scalar_equal. sf. Qed.
Lemma safe_mat l r c : safe (list_to_mat J l r c). Proof. unfold list_to_mat. sf. Qed.
Lemma safe_ineq o l r : safe (ineq_to_expr J o l r). Proof. unfold ineq_to_expr. sf. Qed.
Lemma safe_uneq v : safe (@uneq_to_set (globals V * St) E Ob v). Proof. unfold uneq_to_set. sf. Qed.
Lemma safe_only_i v : safe (expr_with_only_i J v). Proof. unfold expr_with_only_i. sf. Qed.
Hint Resolve safe_scalar safe_mat safe_ineq safe_uneq safe_only_i : safe.
Definition safe_rec (rec : pyval E Ob -> pyval E Ob -> atype -> atype -> M (globals V * St) bool) : Prop := forall a b s t, safe (rec a b s t).
Lemma safe_typed rec a b : safe_rec rec -> safe (typed J rec a b). Proof. intro H. unfold typed. sf. Qed.
Lemma safe_vec cmp l1 l2 : (forall a b, safe (cmp a b)) -> safe (@vec_all (globals V * St) E Ob cmp l1 l2).
Proof. intro H. revert l2. induction l1; intros [|]; cbn [vec_all]; sf. Qed.
Lemma safe_set_any cmp l : (forall b, safe (cmp b)) -> safe (@set_any (globals V * St) E Ob cmp l).
Proof. intro H. induction l; cbn [set_any]; sf. Qed.
Lemma safe_set rec l1 l2 : safe_rec rec -> safe (set_all J rec l1 l2).
Proof. intro H. induction l1; cbn [set_all]; [sf|]. apply safe_bind; [sf|]. intro. apply safe_bind; [apply safe_set_any; intro; sf; apply H|]. sf. Qed.
Lemma safe_mats cmp f g ps : (forall a b, safe (cmp a b)) -> safe (@mat_all (globals V * St) E Ob cmp f g ps).
Proof. intro H. induction ps; cbn [mat_all]; sf. Qed.
Hint Resolve safe_typed safe_vec safe_set safe_mats : safe.
Lemma safe_body rec v w s t : safe_rec rec -> safe (Parser.body J rec v w s t).
Proof.
  intro H. assert (H' : forall a b s t, safe (rec a b s t)) by exact H. unfold Parser.body.
  sf.
Qed.
Lemma safe_equal n v w s t : safe (equal_sympy J n v w s t).
Proof. revert v w s t. induction n; intros; cbn [equal_sympy]; [sf|]. apply safe_body. exact IHn. Qed.
Lemma safe_any_gv cmp g l : (forall a b, safe (cmp a b)) -> safe (@any_gv (globals V * St) E Ob cmp g l).
Proof. intro H. induction l as [|[|]]; cbn [any_gv]; sf. Qed.
Lemma safe_any_gt cmp l1 l2 : (forall a b, safe (cmp a b)) -> safe (@any_gt (globals V * St) E Ob cmp l1 l2).
Proof. intro H. induction l1 as [|[|] l1 IH]; cbn [any_gt]; [sf| |exact IH]. apply safe_bind; [apply safe_any_gv, H|]. sf. Qed.
End Safe.

(** ** Comparing elements under an invariant *)
Section Elements.
Variable W : World.
Variable Inv : Eval.St W -> Prop.
(** [m], started with the invariant, returns [a] with the invariant *)
Definition yields {A} (m : M (Eval.St W) A) (a : A) : Prop := forall st, Inv st -> exists st', m st = (Ret a, st') /\ Inv st'.
Lemma yields_ret {A} (a : A) : yields (ret a) a.
Proof. intros st I. exists st. auto. Qed.
Lemma yields_bind {A B} (m : M (Eval.St W) A) (f : A -> M (Eval.St W) B) a b : yields m a -> yields (f a) b -> yields (bind m f) b.
Proof. intros Hm Hf st I. destruct (Hm st I) as (s & Es & I'). unfold bind. rewrite Es. apply Hf, I'. Qed.
Lemma yields_try {A} (m h : M (Eval.St W) A) a : yields m a -> yields (try_except m h) a.
Proof. intros Hm st I. destruct (Hm st I) as (s & Es & I'). exists s. unfold try_except. rewrite Es. auto. Qed.
Variable rec : pystr -> pystr -> M (Eval.St W) bool.
Variable v : pystr -> pystr -> bool.
Definition zip_pure (l1 l2 : list pystr) : bool := forallb (fun p => v (fst p) (snd p)) (combine l1 l2).
Lemma all_zip_yields l1 l2 : (forall x y, In x l1 -> In y l2 -> yields (rec x y) (v x y)) -> yields (all_zip W rec l1 l2) (zip_pure l1 l2).
Proof.
  unfold zip_pure. revert l2. induction l1 as [|x l1 IH]; intros [|y l2] H; try apply yields_ret. cbn [all_zip combine forallb fst snd].
  eapply yields_bind; [apply H; left; reflexivity|]. destruct (v x y); cbn [andb]; [|apply yields_ret].
  apply IH. intros; apply H; right; assumption.
Qed.
Lemma find_match_yields g l : (forall y, In y (map fst l) -> yields (rec g y) (v g y)) -> yields (find_match W rec g l) (find_pure v g l).
Proof.
  intro H. induction l as [|[y used] l IH]; [apply yields_ret|]. cbn [find_match find_pure].
  apply yields_bind with (a := negb used && v g y).
  { destruct used; cbn [negb andb]; [apply yields_ret|apply H; left; reflexivity]. }
  destruct (negb used && v g y); [apply yields_ret|].
  eapply yields_bind; [apply IH; intros; apply H; right; assumption|]. apply yields_ret.
Qed.
Lemma greedy_yields gts l : (forall x y, In x gts -> In y (map fst l) -> yields (rec x y) (v x y)) -> yields (greedy W rec gts l) (greedy_pure v gts l).
Proof.
  revert l; induction gts as [|g gts IH]; intros l H; [apply yields_ret|]. cbn [greedy greedy_pure].
  eapply yields_bind; [apply find_match_yields; intros; apply H; [left; reflexivity|assumption]|].
  eapply yields_bind; [apply IH; rewrite find_pure_fst; intros; apply H; [right|]; assumption|]. apply yields_ret.
Qed.
(** What compare_elems returns on two sequences without \in *)
Definition elems_pure (k1 k2 : kind) (l1 l2 : list pystr) : bool :=
  Nat.eqb (length (elems W k1 l1)) (length (elems W k2 l2)) && kind_eqb k1 k2 &&
  match k1 with KSet => greedy_pure v (set_iter W l1) (map (fun y => (y, false)) (set_iter W l2)) | _ => zip_pure l1 l2 end.
Lemma compare_elems_yields k1 k2 l1 l2 : ~ In in_tok l2 -> (forall x y, In x l1 -> In y l2 -> yields (rec x y) (v x y)) ->
  yields (compare_elems W rec (SSeq k1 l1) (SSeq k2 l2)) (elems_pure k1 k2 l1 l2).
Proof.
  intros NI H. unfold compare_elems, elems_pure. cbn [py_len].
  assert (has_in (SSeq k2 l2) = false) as X.
  { cbn [has_in]. apply not_true_is_false. intro X. apply existsb_exists in X. destruct X as (x & Hx & Ex). apply str_eqb_eq in Ex. subst x. contradiction. }
  rewrite X, andb_true_r. destruct (Nat.eqb _ _); cbn [negb andb]; [|apply yields_ret].
  destruct (kind_eqb k1 k2); cbn [negb]; [|apply yields_ret].
  destruct k1; try (apply all_zip_yields; exact H).
  apply greedy_yields. rewrite fst_fresh. intros x y Hx Hy. apply H.
  - apply (proj2 (set_iter_distinct W l1)), Hx.
  - apply (proj2 (set_iter_distinct W l2)), Hy.
Qed.
End Elements.

(** The meaning of that verdict *)
Section Meaning.
Variable W : World.
Variable v : pystr -> pystr -> bool.
Notation R := (fun x y => v x y = true).
Lemma zip_pure_iff l1 l2 : length l1 = length l2 -> (zip_pure v l1 l2 = true <-> Forall2 R l1 l2).
Proof.
  unfold zip_pure. revert l2. induction l1 as [|x l1 IH]; intros [|y l2] L; try discriminate L; cbn [combine forallb fst snd].
  - split; [constructor|reflexivity].
  - rewrite andb_true_iff, (IH l2) by (cbn in L; lia). split; [intros []; constructor; assumption|]. intro F. inversion F; subst. auto.
Qed.
Lemma ordered_iff k1 k2 l1 l2 : k1 <> KSet -> k2 <> KSet -> (elems_pure W v k1 k2 l1 l2 = true <-> k1 = k2 /\ Forall2 R l1 l2).
Proof.
  intros N1 N2. unfold elems_pure.
  assert (elems W k1 l1 = l1 /\ elems W k2 l2 = l2) as [-> ->] by (destruct k1, k2; try congruence; auto).
  rewrite !andb_true_iff, Nat.eqb_eq. split.
  - intros [[L K] Z]. assert (k1 = k2) as <- by (destruct k1, k2; try reflexivity; discriminate K). split; [reflexivity|].
    apply zip_pure_iff; [exact L|]. destruct k1; try congruence; exact Z.
  - intros [<- F]. pose proof (Forall2_length _ _ _ F) as L. split; [split; [exact L|destruct k1; reflexivity]|].
    destruct k1; try congruence; apply zip_pure_iff; assumption.
Qed.
Lemma mixed_false k1 k2 l1 l2 : k1 <> k2 -> elems_pure W v k1 k2 l1 l2 = false.
Proof. intro N. unfold elems_pure. destruct (Nat.eqb _ _); [|reflexivity]. destruct k1, k2; try congruence; reflexivity. Qed.
Lemma unordered_sound l1 l2 d1 d2 : distinct_elements l1 d1 -> distinct_elements l2 d2 -> elems_pure W v KSet KSet l1 l2 = true -> matching R d1 d2 [].
Proof.
  intros D1 D2 H. unfold elems_pure in H. cbn [elems kind_eqb] in H. rewrite !andb_true_iff, Nat.eqb_eq in H. destruct H as [[L _] G].
  pose proof (distinct_perm _ _ _ (set_iter_distinct W l1) D1) as P1.
  pose proof (distinct_perm _ _ _ (set_iter_distinct W l2) D2) as P2.
  assert (exists rest, matching R (set_iter W l1) (set_iter W l2) rest) as (rest & M).
  { clear - G. revert G. generalize (set_iter W l1) as gts. assert (forall gts l, greedy_pure v gts l = true -> exists rest, matching R gts (unused l) rest) as X.
    - induction gts as [|g gts IH]; intros l H; cbn [greedy_pure] in H; [exists (unused l), []; split; [reflexivity|constructor]|].
      apply andb_true_iff in H. destruct H as [F G]. pose proof (find_pure_spec v g l) as S. rewrite F in S. destruct S as (y & Hy & P).
      destruct (IH _ G) as (rest & m & Pm & Fm). exists rest, (y :: m). split; [|constructor; assumption]. rewrite P, Pm. reflexivity.
    - intros gts H. apply X in H. rewrite unused_fresh in H. exact H. }
  pose proof (matching_length _ _ _ _ M) as Lm. destruct rest; [|cbn in Lm; lia]. destruct M as (m & Pm & F).
  destruct (Forall2_perm_l _ _ _ _ P1 F) as (m' & Pm' & F'). exists m'. split; [|exact F']. rewrite <- P2, Pm, !app_nil_r. exact Pm'.
Qed.
Lemma unordered_complete l1 l2 d1 d2 : (forall x y z w, v x y = true -> v z y = true -> v z w = true -> v x w = true) ->
  distinct_elements l1 d1 -> distinct_elements l2 d2 -> matching R d1 d2 [] -> elems_pure W v KSet KSet l1 l2 = true.
Proof.
  intros Z D1 D2 M. unfold elems_pure. cbn [elems kind_eqb].
  pose proof (distinct_perm _ _ _ (set_iter_distinct W l1) D1) as P1.
  pose proof (distinct_perm _ _ _ (set_iter_distinct W l2) D2) as P2.
  pose proof (matching_length _ _ _ _ M) as L. rewrite (Permutation_length P1), (Permutation_length P2), L. cbn [length]. rewrite Nat.add_0_r, Nat.eqb_refl. cbn [andb].
  rewrite greedy_pure_complete, unused_fresh by exact Z. destruct M as (m & Pm & F). exists [].
  destruct (Forall2_perm_l _ _ _ _ (Permutation_sym P1) F) as (m' & Pm' & F'). exists m'. split; [|exact F']. rewrite P2, Pm, !app_nil_r. exact Pm'.
Qed.
End Meaning.

(** ** The whole verdict on two sequences *)
Section Whole.
Context {St V' S : Type}.
Variable IS : ISympy St V' S.
Variable cmp : S -> S -> M St bool.
Variable ints : pystr -> pystr.
Variable iter : list pystr -> list pystr.
Variable iter_ok : forall l, Permutation (iter l) (nodup str_eq_dec l).
Variable simp : pystr -> pystr -> M St bool.
Variable lhs : pystr -> M St unit.
Notation W := (with_intervals IS cmp ints iter iter_ok simp lhs).
Variable Inv : St -> Prop.

Lemma in_tok_dead : Automaton.dead place place_eqb places text_alphabet move (rs "\in") = true.
Proof. vm_compute. reflexivity. Qed.
Lemma tight_not_in e : wf e -> printable e -> tight e <> in_tok.
Proof.
  intros We Pe H. pose proof (printable_finishes [] e (or_introl eq_refl) We Pe) as F.
  pose proof (Automaton.dead_contains place place_eqb place_eqb_ok places text_alphabet move places_closed (u "\in") (tight e) in_tok_dead (finishes_readable _ F)) as X.
  rewrite H in X. vm_compute in X. discriminate X.
Qed.
Lemma no_in l : Forall item l -> ~ In in_tok (map tight l).
Proof. intros F X. apply in_map_iff in X. destruct X as (e & He & Ie). rewrite Forall_forall in F. destruct (F e Ie). exact (tight_not_in e H H0 He). Qed.

(** A text that is a sequence of three items or more is no interval. *)
Definition commas (s : pystr) : nat := length (filter (fun c => (c =? 44)%N) s).
Lemma commas_app a b : commas (a ++ b) = commas a + commas b.
Proof. unfold commas. rewrite filter_app, app_length. reflexivity. Qed.
Lemma commas_none s : ~ In 44%N s -> commas s = 0.
Proof.
  intro H. unfold commas. induction s as [|c s IH]; [reflexivity|]. cbn [filter].
  destruct (N.eqb_spec c 44) as [->|_]; [exfalso; apply H; left; reflexivity|]. apply IH. intro X; apply H; right; exact X.
Qed.
Lemma split_commas_count s : forall cur, length (split_go (u ",") 0 s cur) = Datatypes.S (commas s).
Proof.
  unfold commas. induction s as [|c s IH]; intro cur; cbn [split_go]; [reflexivity|]. change (u ",") with [44%N] in *. cbn [starts_with filter].
  rewrite N.eqb_sym. destruct (c =? 44)%N; cbn [andb length].
  - change (1 - 1) with 0. rewrite IH. reflexivity.
  - apply IH.
Qed.
Lemma commas_join l : (forall x, In x l -> ~ In 44%N x) -> commas (join [44%N] l) = length l - 1.
Proof.
  induction l as [|x l IH]; intro H; [reflexivity|]. destruct l as [|y l].
  - cbn [join]. rewrite commas_none by (apply H; left; reflexivity). reflexivity.
  - cbn [join] in *. rewrite !commas_app, IH by (intros; apply H; right; assumption). rewrite (commas_none x) by (apply H; left; reflexivity).
    change (commas [44%N]) with 1. cbn [length]. lia.
Qed.
Lemma commas_sequence k l : Forall item l -> commas (sequence k [] l) = length l - 1.
Proof.
  intro F. assert (commas (items [] l) = length l - 1) as X.
  { unfold items. rewrite commas_join, map_length; [reflexivity|]. intros x Hx. apply in_map_iff in Hx. destruct Hx as (e & <- & He).
    rewrite Forall_forall in F. destruct (F e He) as [We Pe]. apply (tight_item e We Pe). }
  unfold sequence. destruct k as [k|]; [|exact X]. unfold around, wrap. rewrite <- X. generalize (items [] l) as s. intro s.
  change (fst (pair_of k) :: s ++ [snd (pair_of k)]) with ([fst (pair_of k)] ++ s ++ [snd (pair_of k)]). rewrite !commas_app. destruct k; cbn; lia.
Qed.
Lemma no_split sep s : sep <> [] -> contains sep s = false -> split_on sep s = [s].
Proof.
  intros N H. unfold split_on. rewrite split_go_last.
  - rewrite app_nil_r, rev_involutive. reflexivity.
  - intros p q X. assert (contains sep s = true) as Y by (apply contains_spec; exists p, q; exact X). congruence.
Qed.
Lemma long_no_interval k l st : roundish k -> Forall item l -> 3 <= length l -> interval_of IS (sequence k [] l) st = (Raise ValueError, st).
Proof.
  intros R F L. assert (l <> []) as Nl by (destruct l; [cbn in L; lia|discriminate]).
  assert (A : Forall (after_gap []) (tl l)) by (apply Forall_forall; intros; left; reflexivity).
  destruct (sequence_no_matrix k [] l (or_introl eq_refl) Nl R F A) as (_ & U1 & U2).
  destruct l as [|e l]; [congruence|]. pose proof (around_ends k _ R (items_ends [] (or_introl eq_refl) e l F A)) as E. fold (sequence k [] (e :: l)) in E.
  set (t := sequence k [] (e :: l)) in *.
  assert (D : forall sign, sign = cup_sign \/ sign = cap_sign -> contains sign t = false).
  { intros sign Hs. eapply Automaton.dead_contains; [exact spot_eqb_ok|exact spots_closed| |apply ends_readable, E]. destruct Hs as [-> | ->]; vm_compute; reflexivity. }
  unfold interval_of, split_either. rewrite (D cup_sign) by auto. rewrite (no_split (u "\cup")) by (assumption || discriminate).
  cbn [unions]. unfold split_either. rewrite (D cap_sign) by auto. rewrite (no_split (u "\cap")) by (assumption || discriminate).
  cbn [intersections]. unfold one_interval. cbv zeta. rewrite (ends_strip t E).
  pose proof (split_commas_count t []) as C. fold (split_on (u ",") t) in C. unfold t in C at 2. rewrite commas_sequence in C by exact F.
  destruct (split_on (u ",") t) as [|a [|b [|c r]]]; cbn [length] in C, L; try lia; reflexivity.
Qed.
Lemma long_intervals k1 k2 l1 l2 st : roundish k1 -> roundish k2 -> Forall item l1 -> Forall item l2 -> 3 <= length l1 -> 3 <= length l2 ->
  possible_intervals W (sequence k1 [] l1) (sequence k2 [] l2) st = (Ret (false, false), st).
Proof.
  intros R1 R2 F1 F2 L1 L2. unfold possible_intervals, str_to_interval, bind, try_bare. cbn [interval_body with_intervals].
  rewrite (long_no_interval k1 l1 st R1 F1 L1). cbn [fst snd]. unfold ret. cbn. rewrite (long_no_interval k2 l2 st R2 F2 L2). reflexivity.
Qed.

(** The interval stage of is_latex_equiv *)
Definition interval_stage (t1 t2 : pystr) : M St (bool * bool) := if has_bracket t1 then possible_intervals W t1 t2 else ret (false, false).
Lemma latex_equiv_sequence rec v k1 k2 l1 l2 c sp : roundish k1 -> roundish k2 -> Forall item l1 -> Forall item l2 -> 2 <= length l1 -> 2 <= length l2 ->
  apart (map tight l1) -> apart (map tight l2) -> yields W Inv (interval_stage (sequence k1 [] l1) (sequence k2 [] l2)) (c, sp) ->
  (forall x y, In x (map tight l1) -> In y (map tight l2) -> yields W Inv (rec x y) (v x y)) ->
  yields W Inv (is_latex_equiv W rec (sequence k1 [] l1) (sequence k2 [] l2)) (c || elems_pure W v (bracket_kind k1) (bracket_kind k2) (map tight l1) (map tight l2)).
Proof.
  intros R1 R2 F1 F2 L1 L2 A1 A2 HI Hr. unfold is_latex_equiv.
  assert (Nl1 : l1 <> []) by (destruct l1; [cbn in L1; lia|discriminate]). assert (Nl2 : l2 <> []) by (destruct l2; [cbn in L2; lia|discriminate]).
  assert (G : forall l, Forall (after_gap []) (tl l)) by (intro; apply Forall_forall; intros; left; reflexivity).
  destruct (sequence_no_matrix k1 [] l1 (or_introl eq_refl) Nl1 R1 F1 (G l1)) as (M1 & _).
  destruct (sequence_no_matrix k2 [] l2 (or_introl eq_refl) Nl2 R2 F2 (G l2)) as (M2 & _).
  pose proof (sequence_split k1 l1 L1 F1 A1) as S1. pose proof (sequence_split k2 l2 L2 F2 A2) as S2.
  set (t1 := sequence k1 [] l1) in *. set (t2 := sequence k2 [] l2) in *.
  assert (N2 : t2 <> []).
  { intro X. destruct l2 as [|e [|f l2]]; [congruence|cbn in L2; lia|]. pose proof (comma_in_items k2 e f l2) as Y. fold (sequence k2 [] (e :: f :: l2)) in Y. fold t2 in Y. rewrite X in Y. exact Y. }
  destruct t2 as [|c2 t2'] eqn:Et2; [congruence|]. rewrite <- Et2 in *. clear Et2.
  eapply yields_bind; [exact HI|]. cbn [fst]. destruct c; cbn [orb].
  - eapply yields_bind; [apply yields_ret|]. rewrite M1. cbn [fst negb andb]. eapply yields_bind; [apply yields_ret|]. cbn [fst negb andb]. apply yields_ret.
  - eapply yields_bind.
    + unfold possible_tuple. rewrite S1, S2. eapply yields_bind; [apply (yields_ret W Inv)|]. eapply yields_bind; [apply (yields_ret W Inv)|]. cbn beta iota.
      eapply yields_bind; [apply (compare_elems_yields W Inv rec v); [apply no_in, F2|exact Hr]|]. apply yields_ret.
    + rewrite M1, M2. cbn [orb]. rewrite andb_false_r. eapply yields_bind; [apply yields_ret|]. cbn [fst snd negb]. rewrite andb_false_r. apply yields_ret.
Qed.

(** What the verdict says about the items: in order between equal brackets, one to one when bare *)
Definition agree (R : pystr -> pystr -> Prop) (k1 k2 : option kind) (l1 l2 : list pystr) : Prop :=
  match k1, k2 with
  | None, None => forall d1 d2, distinct_elements l1 d1 -> distinct_elements l2 d2 -> matching R d1 d2 []
  | Some k1, Some k2 => k1 = k2 /\ Forall2 R l1 l2
  | _, _ => False
  end.
Lemma agree_refl (R : pystr -> pystr -> Prop) (k : option kind) l : (forall x, In x l -> R x x) -> agree R k k l l.
Proof.
  intro H. destruct k as [k|]; cbn [agree].
  - split; [reflexivity|]. induction l as [|x l IH]; [constructor|]. constructor; [apply H; left; reflexivity|]. apply IH. intros; apply H; right; assumption.
  - intros d1 d2 D1 D2. exists d1. split; [rewrite app_nil_r; apply (distinct_perm l); assumption|].
    assert (forall x, In x d1 -> R x x) as Hd by (intros x Hx; apply H, (proj2 D1), Hx). clear - Hd.
    induction d1 as [|x d IH]; [constructor|]. constructor; [apply Hd; left; reflexivity|]. apply IH. intros; apply Hd; right; assumption.
Qed.
Lemma elems_pure_agree v k1 k2 l1 l2 : roundish k1 -> roundish k2 -> elems_pure W v (bracket_kind k1) (bracket_kind k2) l1 l2 = true -> agree (fun x y => v x y = true) k1 k2 l1 l2.
Proof.
  intros R1 R2 H. unfold roundish in *. destruct k1 as [k1|], k2 as [k2|]; cbn [agree bracket_kind] in *.
  - apply (ordered_iff W v k1 k2 l1 l2); [congruence|congruence|exact H].
  - rewrite mixed_false in H by congruence. discriminate H.
  - rewrite mixed_false in H by congruence. discriminate H.
  - intros d1 d2 D1 D2. apply (unordered_sound W v l1 l2); assumption.
Qed.
Lemma agree_elems_pure v k1 k2 l1 l2 : roundish k1 -> roundish k2 -> (k1 = None -> forall x y z w, v x y = true -> v z y = true -> v z w = true -> v x w = true) ->
  agree (fun x y => v x y = true) k1 k2 l1 l2 -> elems_pure W v (bracket_kind k1) (bracket_kind k2) l1 l2 = true.
Proof.
  intros R1 R2 Z H. unfold roundish in *. destruct k1 as [k1|], k2 as [k2|]; cbn [agree bracket_kind] in *; try contradiction.
  - apply (ordered_iff W v k1 k2 l1 l2); [congruence|congruence|exact H].
  - apply (unordered_complete W v l1 l2 (set_iter W l1) (set_iter W l2)); [apply Z; reflexivity|apply set_iter_distinct|apply set_iter_distinct|].
    apply H; apply set_iter_distinct.
Qed.

(** A text of a sequence: any of its spellings, brackets [k], items [l] after lowering *)
Definition sequence_text (s : pystr) (k : option kind) (l : list arith) : Prop :=
  exists gap l0, s = sequence k gap l0 /\ (gap = [] \/ gap = [32%N]) /\ l = map low l0 /\ roundish k /\ 2 <= length l0 /\
    Forall item l0 /\ Forall item l /\ Forall (after_gap gap) (tl l0) /\ apart (map tight l).
Theorem sequences_verdict n v s1 s2 k1 k2 l1 l2 c sp : sequence_text s1 k1 l1 -> sequence_text s2 k2 l2 ->
  yields W Inv (interval_stage (sequence k1 [] l1) (sequence k2 [] l2)) (c, sp) ->
  (forall x y, In x (map tight l1) -> In y (map tight l2) -> yields W Inv (is_equiv_str W (Datatypes.S n) x y) (v x y)) ->
  (exists st, Inv st) ->
  exists b, yields W Inv (is_equiv W (Datatypes.S (Datatypes.S n)) (Some s1) (Some s2)) b /\
    (b = true -> c = true \/ agree (fun x y => v x y = true) k1 k2 (map tight l1) (map tight l2)) /\
    (c = true -> b = true) /\
    ((k1 = None -> forall x y z w, v x y = true -> v z y = true -> v z w = true -> v x w = true) ->
     agree (fun x y => v x y = true) k1 k2 (map tight l1) (map tight l2) -> b = true).
Proof.
  intros (g1 & m1 & -> & G1 & E1 & R1 & L1 & F1 & F1' & T1 & A1) (g2 & m2 & -> & G2 & E2 & R2 & L2 & F2 & F2' & T2 & A2) HI Hr [st0 I0].
  assert (Fw : forall l, Forall item l -> Forall wf l) by (intros l F; eapply Forall_impl; [|exact F]; intros a [X _]; exact X).
  destruct (sequence_normal ints k1 g1 m1 G1 L1 R1 F1) as [N1 P1]; [apply Fw; rewrite <- E1; exact F1'|exact T1|rewrite <- E1; exact A1|].
  destruct (sequence_normal ints k2 g2 m2 G2 L2 R2 F2) as [N2 P2]; [apply Fw; rewrite <- E2; exact F2'|exact T2|rewrite <- E2; exact A2|].
  rewrite <- E1 in N1. rewrite <- E2 in N2. assert (L1' : 2 <= length l1) by (rewrite E1, map_length; exact L1). assert (L2' : 2 <= length l2) by (rewrite E2, map_length; exact L2).
  assert (SAME : sequence k1 [] l1 = sequence k2 [] l2 -> agree (fun x y => v x y = true) k1 k2 (map tight l1) (map tight l2)).
  { intro X. pose proof (sequence_split k1 l1 L1' F1' A1) as S1. pose proof (sequence_split k2 l2 L2' F2' A2) as S2. rewrite X, S2 in S1. injection S1 as K M.
    assert (k2 = k1) as -> by (unfold roundish in *; destruct k1, k2; cbn in K; congruence). rewrite M. apply agree_refl. intros x Hx.
    destruct (Hr x x Hx) with (st := st0) as (st' & Q & _); [rewrite M; exact Hx|exact I0|].
    cbn [is_equiv_str] in Q. unfold is_equiv_body in Q. rewrite str_eqb_refl in Q. injection Q as Q _. symmetry. exact Q. }
  cbn [is_equiv]. change (is_equiv_str W (Datatypes.S (Datatypes.S n)) ?a ?b) with (is_equiv_body W (is_equiv_str W (Datatypes.S n)) a b). unfold is_equiv_body.
  rewrite P1, P2. cbn [int_str with_intervals]. cbv zeta. rewrite N1, N2.
  destruct (str_eqb (sequence k1 g1 m1) (sequence k2 g2 m2)) eqn:Es.
  { exists true. split; [apply yields_ret|]. split; [intros _; right; apply SAME|auto]. apply str_eqb_eq in Es. rewrite Es, N2 in N1. injection N1 as ->. reflexivity. }
  destruct (str_eqb (sequence k1 [] l1) (sequence k2 [] l2)) eqn:Et.
  { exists true. split; [apply yields_ret|]. split; [intros _; right; apply SAME, str_eqb_eq, Et|auto]. }
  eexists. split; [unfold compare_norm; apply yields_try; eapply (latex_equiv_sequence _ v); eassumption|].
  split; [|split].
  - intro H. apply orb_true_iff in H. destruct H as [H|H]; [left; exact H|right; apply elems_pure_agree; assumption].
  - intros ->. reflexivity.
  - intros Z H. rewrite agree_elems_pure by assumption. apply orb_true_r.
Qed.
End Whole.
