(** is_equiv on written matrices, and on matrices of numbers with the repository's own comparison and latex2sympy. *)
From Coq Require Import String List NArith ZArith QArith Bool Lia Arith Permutation.
From Verif Require Import PyStr PyStrTheory Spec Normalize Monad MonadTheory Split SplitTheory Eval EvalTheory EvalTheory2 Interval IntervalEval Grammar Parser ParserTheory ParserNum
  L2S L2STheory L2SState L2SValue Arith ArithParse LatexForm Answer SeqAuto SeqForm MatAuto MatForm ParserMore Pipeline Sequence SeqNum.
Import ListNotations.
Local Open Scope mon_scope.
Local Close Scope Q_scope. Local Open Scope nat_scope.

(** A column is laid down as a row. *)
Definition laid {A} (rows : list (list A)) : list (list A) := if forallb (fun r => Nat.eqb (length r) 1) rows then [concat rows] else rows.
Definition rectangular {A} (rows : list (list A)) : Prop := rows <> [] /\ exists n, 0 < n /\ Forall (fun r => length r = n) rows.
Lemma laid_map {A B} (f : A -> B) rows : laid (map (map f) rows) = map (map f) (laid rows).
Proof.
  unfold laid. assert (forallb (fun r => Nat.eqb (length r) 1) (map (map f) rows) = forallb (fun r => Nat.eqb (length r) 1) rows) as ->.
  { induction rows as [|r rows IH]; [reflexivity|]. cbn [map forallb]. rewrite map_length, IH. reflexivity. }
  destruct (forallb _ rows); [|reflexivity]. cbn [map]. rewrite concat_map. reflexivity.
Qed.
Lemma laid_forall {A} (P : A -> Prop) rows : Forall (Forall P) rows -> Forall (Forall P) (laid rows).
Proof.
  intro F. unfold laid. destruct (forallb _ rows); [|exact F]. constructor; [|constructor]. induction F as [|r rows Fr F IH]; [constructor|]. cbn [concat]. apply Forall_app. auto.
Qed.
Lemma laid_in {A} (rows : list (list A)) r x : In r (laid rows) -> In x r -> In x (concat rows).
Proof.
  unfold laid. destruct (forallb _ rows); [intros [<-|[]] H; exact H|]. intros Hr Hx. apply in_concat. exists r. auto.
Qed.
Lemma rectangular_map {A B} (f : A -> B) rows : rectangular rows -> rectangular (map (map f) rows).
Proof.
  intros (N & n & Hn & F). split; [destruct rows; [congruence|discriminate]|]. exists n. split; [exact Hn|]. apply Forall_map. eapply Forall_impl; [|exact F]. intros r E. rewrite map_length. exact E.
Qed.
(** The three shapes *)
Inductive shape (t : list (list pystr)) : matres -> Prop :=
| ShOne c : laid t = [[c]] -> shape t (MStr c)
| ShRow l : laid t = [l] -> 2 <= length l -> shape t (MRows (map CStr l))
| ShGrid : laid t = t -> 2 <= length t -> shape t (MRows (map CRow t)).
Lemma table_shape t : rectangular t -> shape t (table_result t).
Proof.
  intros (N & n & Hn & F). destruct t as [|r t]; [congruence|]. inversion F as [|? ? Lr Ft]; subst. destruct t as [|r2 t].
  - destruct r as [|a [|b r]]; [cbn in Hn; lia|apply ShOne; reflexivity|]. cbn [table_result]. apply ShRow; [reflexivity|cbn; lia].
  - assert (X : table_result (r :: r2 :: t) = MRows (map cell_of_row (r :: r2 :: t))) by (destruct r as [|a [|b r]]; reflexivity). rewrite X. clear X.
    destruct (Nat.eq_dec (length r) 1) as [E|E].
    + rewrite E in F. assert (exists l, r :: r2 :: t = map (fun x => [x]) l /\ concat (r :: r2 :: t) = l /\ 2 <= length l) as (l & El & Ec & Ll).
      { exists (concat (r :: r2 :: t)). assert (G : forall q : list (list pystr), Forall (fun r => length r = 1) q -> q = map (fun x => [x]) (concat q) /\ length (concat q) = length q).
        { intros q Fq. induction Fq as [|x q Hx Fq [IH1 IH2]]; [split; reflexivity|]. destruct x as [|a [|b x]]; try discriminate Hx. cbn [concat app map length]. rewrite <- IH1, IH2. auto. }
        destruct (G _ F) as [G1 G2]. split; [exact G1|]. split; [reflexivity|]. rewrite G2. cbn. lia. }
      assert (laid (r :: r2 :: t) = [l]) as L.
      { unfold laid. rewrite Ec. assert (forallb (fun r => Nat.eqb (length r) 1) (r :: r2 :: t) = true) as ->; [|reflexivity]. rewrite forallb_forall. intros x Hx. rewrite Forall_forall in F. rewrite (F x Hx). reflexivity. }
      replace (map cell_of_row (r :: r2 :: t)) with (map CStr l); [apply ShRow; assumption|]. rewrite El, map_map. reflexivity.
    + replace (map cell_of_row (r :: r2 :: t)) with (map CRow (r :: r2 :: t)).
      * apply ShGrid; [|cbn; lia]. unfold laid. cbn [forallb]. apply Nat.eqb_neq in E. rewrite E. reflexivity.
      * apply map_ext_in. intros x Hx. rewrite Forall_forall in F. specialize (F x Hx). destruct x as [|a [|b x]]; cbn in F; [lia|congruence|reflexivity].
Qed.
Lemma shape_laid t1 t2 m : shape t1 m -> shape t2 m -> laid t1 = laid t2.
Proof.
  assert (CS : forall a b, map CStr a = map CStr b -> a = b).
  { induction a as [|x a IH]; intros [|y b] E; try discriminate; [reflexivity|]. injection E as -> E. f_equal. apply IH, E. }
  assert (CR : forall a b, map CRow a = map CRow b -> a = b).
  { induction a as [|x a IH]; intros [|y b] E; try discriminate; [reflexivity|]. injection E as -> E. f_equal. apply IH, E. }
  assert (CX : forall a b, map CStr a = map CRow b -> a = []) by (intros [|x a] [|y b] E; [reflexivity|discriminate..]).
  intros S1 S2. inversion S1 as [c H|l H L|H L]; subst; inversion S2 as [c' H' Em|l' H' L' Em|H' L' Em]; subst.
  - congruence.
  - apply CS in Em. congruence.
  - symmetry in Em. apply CX in Em. subst l. cbn in L. lia.
  - apply CX in Em. subst l'. cbn in L'. lia.
  - apply CR in Em. congruence.
Qed.

Section Verdict.
Context {St V' S : Type}.
Variable IS : ISympy St V' S.
Variable cmp : S -> S -> M St bool.
Variable ints : pystr -> pystr.
Variable iter : list pystr -> list pystr.
Variable iter_ok : forall l, Permutation (iter l) (nodup str_eq_dec l).
Variable simp : pystr -> pystr -> M St bool.
Variable lhs : pystr -> M St unit.
Notation W := (with_intervals IS cmp ints iter iter_ok simp lhs).
Variable Inv : St -> Prop.
Variable rec : pystr -> pystr -> M St bool.
Variable v : pystr -> pystr -> bool.
Notation R := (fun x y => v x y = true).

Definition zip_same (l1 l2 : list pystr) : bool := Nat.eqb (length l1) (length l2) && zip_pure v l1 l2.
Definition grid_same (t1 t2 : list (list pystr)) : bool := Nat.eqb (length t1) (length t2) && forallb (fun p => zip_same (fst p) (snd p)) (combine t1 t2).
Lemma zip_same_iff l1 l2 : zip_same l1 l2 = true <-> Forall2 R l1 l2.
Proof.
  unfold zip_same. rewrite andb_true_iff, Nat.eqb_eq. split.
  - intros [L Z]. apply zip_pure_iff; assumption.
  - intro F. pose proof (Forall2_length _ _ _ F) as L. split; [exact L|]. apply zip_pure_iff; assumption.
Qed.
Lemma grid_same_iff t1 t2 : grid_same t1 t2 = true <-> Forall2 (Forall2 R) t1 t2.
Proof.
  unfold grid_same. revert t2. induction t1 as [|r1 t1 IH]; intros [|r2 t2]; cbn [length Nat.eqb combine forallb andb].
  - split; [constructor|reflexivity].
  - split; [discriminate|inversion 1].
  - split; [discriminate|inversion 1].
  - cbn [fst snd]. rewrite (andb_comm (zip_same r1 r2)), andb_assoc, andb_true_iff, IH, zip_same_iff. split; [intros []; constructor; assumption|]. intro F. inversion F; subst. auto.
Qed.
Lemma strs_yields l1 l2 : length l1 = length l2 -> (forall x y, In x l1 -> In y l2 -> yields W Inv (rec x y) (v x y)) ->
  yields W Inv (all_rows W rec (map CStr l1) (map CStr l2)) (zip_pure v l1 l2).
Proof.
  unfold zip_pure. revert l2. induction l1 as [|x l1 IH]; intros [|y l2] L H; try discriminate L; [apply yields_ret|]. cbn [map all_rows combine forallb fst snd].
  eapply yields_bind; [apply H; left; reflexivity|]. destruct (v x y); cbn [andb]; [|apply yields_ret]. apply IH; [cbn in L; lia|]. intros; apply H; right; assumption.
Qed.
Lemma grid_yields t1 t2 : length t1 = length t2 -> (forall x y, In x (concat t1) -> In y (concat t2) -> yields W Inv (rec x y) (v x y)) ->
  yields W Inv (all_rows W rec (map CRow t1) (map CRow t2)) (forallb (fun p => zip_same (fst p) (snd p)) (combine t1 t2)).
Proof.
  revert t2. induction t1 as [|r1 t1 IH]; intros [|r2 t2] L H; try discriminate L; [apply yields_ret|]. cbn [map all_rows combine forallb fst snd].
  unfold zip_same at 1. destruct (Nat.eqb (length r1) (length r2)); cbn [negb andb]; [|apply yields_ret].
  eapply yields_bind; [apply all_zip_yields; intros x y Hx Hy; apply H; cbn [concat]; apply in_or_app; left; assumption|].
  destruct (zip_pure v r1 r2); cbn [andb]; [|apply yields_ret]. apply IH; [cbn in L; lia|]. intros x y Hx Hy. apply H; cbn [concat]; apply in_or_app; right; assumption.
Qed.
(** The matrix stage *)
Lemma matrix_stage gt gv t1 t2 m1 m2 : split_matrix gt = Ret m1 -> split_matrix gv = Ret m2 -> shape t1 m1 -> shape t2 m2 -> ~ (In gt (concat t1) /\ In gv (concat t2)) ->
  (forall x y, In x (concat t1) -> In y (concat t2) -> yields W Inv (rec x y) (v x y)) ->
  yields W Inv (possible_matrix W rec gt gv) (grid_same (laid t1) (laid t2), true).
Proof.
  intros S1 S2 T1 T2 Ng H. unfold possible_matrix. rewrite S1, S2.
  eapply yields_bind; [apply (yields_ret W Inv)|]. eapply yields_bind; [apply (yields_ret W Inv)|].
  assert (IN1 : forall r x, In r (laid t1) -> In x r -> In x (concat t1)) by (intros r x; apply laid_in).
  assert (IN2 : forall r x, In r (laid t2) -> In x r -> In x (concat t2)) by (intros r x; apply laid_in).
  destruct T1 as [c1 E1|l1 E1 L1|E1 L1], T2 as [c2 E2|l2 E2 L2|E2 L2]; rewrite ?E1, ?E2; rewrite ?E1, ?E2 in IN1; rewrite ?E1, ?E2 in IN2.
  - assert (I1 : In c1 (concat t1)) by (apply (IN1 [c1]); left; reflexivity). assert (I2 : In c2 (concat t2)) by (apply (IN2 [c2]); left; reflexivity).
    assert (str_eqb c1 gt && str_eqb c2 gv = false) as ->. { apply not_true_iff_false. rewrite andb_true_iff, !str_eqb_eq. intros [-> ->]. tauto. }
    eapply yields_bind; [apply H; assumption|]. unfold grid_same, zip_same, zip_pure. cbn. rewrite !andb_true_r. apply yields_ret.
  - assert (grid_same [[c1]] [l2] = false) as ->; [|apply yields_ret]. unfold grid_same, zip_same. cbn. destruct l2 as [|a [|b l2]]; cbn in L2; try lia. reflexivity.
  - assert (grid_same [[c1]] t2 = false) as ->; [|apply yields_ret]. unfold grid_same. destruct t2 as [|a [|b t2]]; cbn in L2; try lia. reflexivity.
  - assert (grid_same [l1] [[c2]] = false) as ->; [|apply yields_ret]. unfold grid_same, zip_same. cbn. destruct l1 as [|a [|b l1]]; cbn in L1; try lia. reflexivity.
  - unfold grid_same. cbn [length Nat.eqb combine forallb fst snd andb]. unfold zip_same. rewrite andb_true_r. rewrite !map_length.
    destruct (Nat.eqb (length l1) (length l2)) eqn:X; cbn [negb andb]; [|apply yields_ret]. apply Nat.eqb_eq in X.
    eapply yields_bind; [apply strs_yields; [exact X|]; intros x y Hx Hy; apply H; [apply (IN1 l1)|apply (IN2 l2)]; (left; reflexivity) || assumption|]. apply yields_ret.
  - assert (grid_same [l1] t2 = false) as ->. { unfold grid_same. destruct t2 as [|a [|b t2]]; cbn in L2; try lia. reflexivity. }
    destruct (negb _); [apply yields_ret|]. eapply yields_bind; [|apply yields_ret]. destruct l1 as [|a l1]; [cbn in L1; lia|]. destruct t2 as [|b t2]; [cbn in L2; lia|]. cbn [map all_rows]. apply yields_ret.
  - assert (grid_same t1 [[c2]] = false) as ->; [|apply yields_ret]. unfold grid_same. destruct t1 as [|a [|b t1]]; cbn in L1; try lia. reflexivity.
  - assert (grid_same t1 [l2] = false) as ->. { unfold grid_same. destruct t1 as [|a [|b t1]]; cbn in L1; try lia. reflexivity. }
    destruct (negb _); [apply yields_ret|]. eapply yields_bind; [|apply yields_ret]. destruct l2 as [|a l2]; [cbn in L2; lia|]. destruct t1 as [|b t1]; [cbn in L1; lia|]. cbn [map all_rows]. apply yields_ret.
  - unfold grid_same. rewrite !map_length. destruct (Nat.eqb (length t1) (length t2)) eqn:X; cbn [negb andb]; [|apply yields_ret]. apply Nat.eqb_eq in X.
    eapply yields_bind; [apply grid_yields; assumption|]. apply yields_ret.
Qed.
End Verdict.

(** ** The whole verdict on two matrices *)
(** A text of a matrix, entries [rows] after lowering *)
Definition matrix_of (s : pystr) (rows : list (list arith)) : Prop :=
  exists e1 e2 sp gap rows0, s = matrix_text e1 e2 sp gap rows0 /\ (sp = [] \/ sp = [32%N]) /\ (gap = [] \/ gap = [32%N]) /\ In e1 delimiters /\ In e2 delimiters /\
    rows = map (map low) rows0 /\ table sp rows0 /\ low_table rows0 /\ rectangular rows0.
Lemma matrix_of_text ints s rows : matrix_of s rows -> exists e1 e2, In e1 delimiters /\ In e2 delimiters /\
  string_normalize ints s = NStr (matrix_text e1 e2 [] [] rows) /\ strip s = s /\ table [] rows /\ rectangular rows.
Proof.
  intros (e1 & e2 & sp & gap & rows0 & -> & Hs & Hg & H1 & H2 & -> & T & L & Rc). exists (PyStr.lower e1), (PyStr.lower e2).
  destruct (env_lower e1 H1) as [_ L1], (env_lower e2 H2) as [_ L2]. split; [exact L1|]. split; [exact L2|].
  destruct (matrix_normal ints e1 e2 sp gap rows0 Hs Hg H1 H2 T L) as [N P]. split; [exact N|]. split; [exact P|]. split; [apply (table_low sp); assumption|apply rectangular_map, Rc].
Qed.
Section Whole.
Context {St V' S : Type}.
Variable IS : ISympy St V' S.
Variable cmp : S -> S -> M St bool.
Variable ints : pystr -> pystr.
Variable iter : list pystr -> list pystr.
Variable iter_ok : forall l, Permutation (iter l) (nodup str_eq_dec l).
Variable simp : pystr -> pystr -> M St bool.
Variable lhs : pystr -> M St unit.
Notation W := (with_intervals IS cmp ints iter iter_ok simp lhs).
Variable Inv : St -> Prop.

Lemma table_items rows : table [] rows -> Forall (Forall item) rows.
Proof. intros [_ F]. eapply Forall_impl; [|exact F]. intros r [_ Fr]. eapply Forall_impl; [|exact Fr]. intros e [X _]. exact X. Qed.
Lemma rect_split e1 e2 rows : In e1 delimiters -> In e2 delimiters -> table [] rows -> rectangular rows -> split_matrix (matrix_text e1 e2 [] [] rows) = Ret (table_result (map (map tight) rows)).
Proof. intros H1 H2 T (N & n & Hn & L). apply (matrix_split e1 e2 rows n); auto using table_items. Qed.
Lemma matrix_not_entry e1 e2 rows : table [] rows -> ~ In (matrix_text e1 e2 [] [] rows) (concat (map (map tight) rows)).
Proof.
  intros T H. apply in_concat in H. destruct H as (r & Hr & Hx). apply in_map_iff in Hr. destruct Hr as (r0 & <- & Hr). apply in_map_iff in Hx. destruct Hx as (e & E & He).
  pose proof (table_items rows T) as F. rewrite Forall_forall in F. specialize (F r0 Hr). rewrite Forall_forall in F. destruct (F e He) as [We Pe].
  pose proof latex_no_words as D. cbn [forallb] in D. rewrite !andb_true_iff in D. destruct D as (_ & _ & D & _).
  pose proof (Automaton.dead_contains place place_eqb place_eqb_ok places text_alphabet move places_closed (u "matrix") (tight e) D (finishes_readable _ (printable_finishes [] e (or_introl eq_refl) We Pe))) as X.
  rewrite E in X. unfold matrix_text in X. rewrite (proj2 (matrix_env_contains e1 e2 _)) in X. discriminate X.
Qed.
(** Past an interval stage and a tuple stage that say no, the matrix stage decides. *)
Definition denies (m : M St (bool * bool)) : Prop := forall st, Inv st -> exists b st', m st = (Ret (false, b), st') /\ Inv st'.
Lemma yields_denied {A} (m : M St (bool * bool)) (f : bool * bool -> M St A) a : denies m -> (forall b, yields W Inv (f (false, b)) a) -> yields W Inv (bind m f) a.
Proof.
  intros D H st I. destruct (D st I) as (b & st' & E & I'). destruct (H b st' I') as (st2 & E2 & I2). exists st2. split; [|exact I2]. unfold bind. rewrite E. exact E2.
Qed.
Lemma matrix_flow rec v gt gv t1 t2 m1 m2 : gv <> [] -> str_is_mat gt || str_is_mat gv = true ->
  split_matrix gt = Ret m1 -> split_matrix gv = Ret m2 -> shape t1 m1 -> shape t2 m2 -> ~ (In gt (concat t1) /\ In gv (concat t2)) ->
  denies (interval_stage IS cmp ints iter iter_ok simp lhs gt gv) -> denies (possible_tuple W rec gt gv) ->
  (forall x y, In x (concat t1) -> In y (concat t2) -> yields W Inv (rec x y) (v x y)) ->
  yields W Inv (is_latex_equiv W rec gt gv) (grid_same v (laid t1) (laid t2)).
Proof.
  intros N Hm S1 S2 T1 T2 Ng HI HT H. unfold is_latex_equiv. destruct gv as [|c gv'] eqn:Eg; [congruence|]. rewrite <- Eg in *. clear Eg.
  apply yields_denied; [exact HI|]. intro b1. cbn [fst]. apply yields_denied; [exact HT|]. intro b2. rewrite Hm. cbn [fst negb andb]. eapply yields_bind.
  { apply (matrix_stage IS cmp ints iter iter_ok simp lhs Inv rec v gt gv t1 t2 m1 m2); assumption. }
  cbn [fst snd negb]. rewrite andb_false_r. apply yields_ret.
Qed.
Lemma matrix_single e1 e2 rows : In e1 delimiters -> In e2 delimiters -> table [] rows ->
  ~ In 44%N (matrix_text e1 e2 [] [] rows) /\ split_tuple (matrix_text e1 e2 [] [] rows) None = Ret (SStr (matrix_text e1 e2 [] [] rows)).
Proof.
  intros H1 H2 T. assert (Z : [] = @nil N \/ @nil N = [32%N]) by (left; reflexivity).
  pose proof (matrix_no_comma [] [] e1 e2 rows Z Z H1 H2 T) as C. split; [exact C|]. apply split_plain; [exact C|apply matrix_balance; auto using (table_wf [])|].
  left. exists 92%N. eexists. split; [reflexivity|lia].
Qed.
Lemma latex_equiv_matrix rec v a1 a2 b1 b2 rows1 rows2 : In a1 delimiters -> In a2 delimiters -> In b1 delimiters -> In b2 delimiters ->
  table [] rows1 -> table [] rows2 -> rectangular rows1 -> rectangular rows2 ->
  (forall x y, In x (concat (map (map tight) rows1)) -> In y (concat (map (map tight) rows2)) -> yields W Inv (rec x y) (v x y)) ->
  yields W Inv (is_latex_equiv W rec (matrix_text a1 a2 [] [] rows1) (matrix_text b1 b2 [] [] rows2)) (grid_same v (laid (map (map tight) rows1)) (laid (map (map tight) rows2))).
Proof.
  intros A1 A2 B1 B2 T1 T2 R1 R2 H. destruct (matrix_single a1 a2 rows1 A1 A2 T1) as [C1 P1], (matrix_single b1 b2 rows2 B1 B2 T2) as [C2 P2].
  eapply (matrix_flow rec v)
    ; [discriminate| |exact (rect_split a1 a2 rows1 A1 A2 T1 R1)|exact (rect_split b1 b2 rows2 B1 B2 T2 R2)|..].
  - change (str_is_mat (matrix_text a1 a2 [] [] rows1)) with (contains (u "matrix") (matrix_text a1 a2 [] [] rows1)). unfold matrix_text at 1. rewrite (proj2 (matrix_env_contains a1 a2 _)). reflexivity.
  - apply table_shape, rectangular_map, R1.
  - apply table_shape, rectangular_map, R2.
  - intros [X _]. exact (matrix_not_entry a1 a2 rows1 T1 X).
  - intros st I. exists false, st. split; [|exact I]. unfold interval_stage. destruct (has_bracket _); [|reflexivity]. apply no_intervals; assumption.
  - intros st I. exists false, st. split; [|exact I]. unfold possible_tuple, lift, bind. rewrite P1, P2. rewrite !str_eqb_refl. reflexivity.
  - exact H.
Qed.

(** *** A matrix and a sequence *)
Lemma split_tuple_as s k r : split_tuple s None = Ret r -> split_tuple s (Some k) = Ret (match r with SStr x => SStr x | SSeq _ l => SSeq k l end).
Proof.
  unfold split_tuple. destruct (scan _ _ _) as [cnt rm]. destruct (negb _); [discriminate|]. destruct (unwrap rm _) as [x k0].
  destruct (split_commas x 0%Z []) as [|a [|b l]]; intro H; injection H as <-; reflexivity.
Qed.
Lemma item_split e k : item e -> split_tuple (tight e) (Some k) = Ret (SStr (tight e)).
Proof.
  intros [We Pe]. apply (split_tuple_as (tight e) k (SStr (tight e))). apply split_plain; [apply tight_item; assumption|apply body_balance, We; auto|apply body_unwrapped; auto].
Qed.
Definition row_of (l : list arith) : list (list pystr) := [map tight l].
Lemma sequence_row k l : roundish k -> 2 <= length l -> Forall item l -> apart (map tight l) -> split_matrix (sequence k [] l) = Ret (MRows (map CStr (map tight l))).
Proof.
  intros R L F Ap. unfold split_matrix. destruct l as [|e l]; [cbn in L; lia|].
  assert (A : Forall (after_gap []) l) by (apply Forall_forall; intros; left; reflexivity).
  pose proof (ends_readable _ (around_ends k _ R (items_ends [] (or_introl eq_refl) e l F A))) as Rd. fold (sequence k [] (e :: l)) in Rd.
  assert (D : Automaton.dead (option place) spot_eqb spots seq_alphabet turn matrix_re = true) by (vm_compute; reflexivity).
  rewrite (Automaton.dead_search (option place) spot_eqb spot_eqb_ok spots seq_alphabet turn spots_closed matrix_re _ D Rd).
  rewrite (split_tuple_as _ KList _ (sequence_split k (e :: l) L F Ap)).
  assert (map_res (fun row => split_tuple row (Some KList)) (map tight (e :: l)) = Ret (map SStr (map tight (e :: l)))) as ->.
  { clear - F. induction F as [|x l' Hx F' IH]; [reflexivity|]. cbn [map map_res]. rewrite (item_split x KList Hx), IH. reflexivity. }
  rewrite map_map. cbn [cell_of]. destruct l as [|f l]; [cbn in L; lia|]. unfold finish. cbn [map].
  rewrite (check_dim_const 1); [reflexivity|lia| |lia]. repeat constructor. apply Forall_map, Forall_forall. intros; reflexivity.
Qed.
Lemma row_shape l : 2 <= length l -> shape (row_of l) (MRows (map CStr (map tight l))).
Proof.
  intro L. apply ShRow; [|rewrite map_length; exact L]. unfold laid, row_of. cbn [forallb length]. rewrite map_length. destruct l as [|a [|b l]]; [cbn in L; lia|cbn in L; lia|reflexivity].
Qed.
(** Looking for an interval leaves the back end as it should be. *)
Definition interval_safe (t : pystr) : Prop := forall st, Inv st -> Inv (snd (str_to_interval W t st)).
Lemma mixed_intervals s1 s2 : (~ In 44%N s1 /\ interval_safe s2) \/ (~ In 44%N s2 /\ interval_safe s1) -> denies (interval_stage IS cmp ints iter iter_ok simp lhs s1 s2).
Proof.
  intros H st I. unfold interval_stage. destruct (has_bracket s1); [|exists false, st; auto].
  assert (NI : forall s st, ~ In 44%N s -> str_to_interval W s st = (Ret None, st)).
  { intros s st' Hs. unfold str_to_interval, try_bare, bind. cbn [interval_body with_intervals]. rewrite (no_interval IS s st' Hs). reflexivity. }
  assert (TO : forall s st, exists o, fst (str_to_interval W s st) = Ret o).
  { intros s st'. unfold str_to_interval, try_bare. destruct (bind _ _ st') as [[o|x] st2]; [exists o|exists None]; reflexivity. }
  unfold possible_intervals. destruct H as [[H Sf]|[H Sf]].
  - unfold bind. rewrite (NI s1 st H). destruct (TO s2 st) as [o Eo]. specialize (Sf st I). destruct (str_to_interval W s2 st) as [r st'] eqn:E. cbn [fst snd] in *. subst r.
    destruct o; eexists; exists st'; (split; [reflexivity|exact Sf]).
  - unfold bind. destruct (TO s1 st) as [o Eo]. specialize (Sf st I). destruct (str_to_interval W s1 st) as [r st'] eqn:E. cbn [fst snd] in *. subst r. rewrite (NI s2 st' H).
    destruct o; eexists; exists st'; (split; [reflexivity|exact Sf]).
Qed.
Lemma mixed_tuples rec s1 s2 x k l : (split_tuple s1 None = Ret (SStr x) /\ split_tuple s2 None = Ret (SSeq k l)) \/ (split_tuple s2 None = Ret (SStr x) /\ split_tuple s1 None = Ret (SSeq k l)) ->
  denies (possible_tuple W rec s1 s2).
Proof.
  intros H st I. exists true, st. split; [|exact I]. unfold possible_tuple, lift, bind. destruct H as [[-> ->]|[-> ->]]; unfold compare_elems; destruct (negb _ && _); reflexivity.
Qed.
Lemma mixed_equiv rec v e1 e2 rows k l (flip : bool) : In e1 delimiters -> In e2 delimiters -> table [] rows -> rectangular rows ->
  roundish k -> 2 <= length l -> Forall item l -> apart (map tight l) -> interval_safe (sequence k [] l) ->
  (forall x y, In x (concat (if flip then row_of l else map (map tight) rows)) -> In y (concat (if flip then map (map tight) rows else row_of l)) -> yields W Inv (rec x y) (v x y)) ->
  yields W Inv (is_latex_equiv W rec (if flip then sequence k [] l else matrix_text e1 e2 [] [] rows) (if flip then matrix_text e1 e2 [] [] rows else sequence k [] l))
    (grid_same v (laid (if flip then row_of l else map (map tight) rows)) (laid (if flip then map (map tight) rows else row_of l))).
Proof.
  intros H1 H2 T Rc R L F Ap Sf H. destruct (matrix_single e1 e2 rows H1 H2 T) as [C P].
  pose proof (rect_split e1 e2 rows H1 H2 T Rc) as S1. pose proof (sequence_row k l R L F Ap) as S2. pose proof (sequence_split k l L F Ap) as P2.
  pose proof (table_shape _ (rectangular_map tight rows Rc)) as T1. pose proof (row_shape l L) as T2. pose proof (matrix_not_entry e1 e2 rows T) as N.
  assert (M1 : str_is_mat (matrix_text e1 e2 [] [] rows) = true) by apply matrix_env_contains.
  assert (N1 : matrix_text e1 e2 [] [] rows <> []) by discriminate.
  assert (N2 : sequence k [] l <> []).
  { intro X. destruct l as [|e [|f l]]; [cbn in L; lia|cbn in L; lia|]. pose proof (comma_in_items k e f l) as Y. fold (sequence k [] (e :: f :: l)) in Y. rewrite X in Y. exact Y. }
  set (t1 := matrix_text e1 e2 [] [] rows) in *. set (t2 := sequence k [] l) in *. clearbody t1 t2.
  destruct flip.
  - eapply (matrix_flow rec v); [exact N1|rewrite M1; apply orb_true_r|exact S2|exact S1|exact T2|exact T1| | | |exact H].
    + intros [_ X]. exact (N X).
    + apply mixed_intervals. right. auto.
    + eapply mixed_tuples. right. eauto.
  - eapply (matrix_flow rec v); [exact N2|rewrite M1; reflexivity|exact S1|exact S2|exact T1|exact T2| | | |exact H].
    + intros [X _]. exact (N X).
    + apply mixed_intervals. left. auto.
    + eapply mixed_tuples. left. eauto.
Qed.
Lemma sequence_of_text s k l : sequence_text s k l -> string_normalize ints s = NStr (sequence k [] l) /\ strip s = s /\ roundish k /\ 2 <= length l /\ Forall item l /\ apart (map tight l).
Proof.
  intros (gap & l0 & -> & G & -> & R & L & F0 & F & A & Ap).
  destruct (sequence_normal ints k gap l0 G L R F0) as [N P]; auto.
  { eapply Forall_impl; [|exact F]. intros e [We _]. exact We. }
  rewrite map_length. auto 10.
Qed.
Theorem mixed_verdict n v s1 s2 rows k l (flip : bool) : matrix_of s1 rows -> sequence_text s2 k l -> interval_safe (sequence k [] l) ->
  (forall x y, In x (concat (if flip then row_of l else map (map tight) rows)) -> In y (concat (if flip then map (map tight) rows else row_of l)) -> yields W Inv (is_equiv_str W (Datatypes.S n) x y) (v x y)) ->
  yields W Inv (is_equiv W (Datatypes.S (Datatypes.S n)) (Some (if flip then s2 else s1)) (Some (if flip then s1 else s2)))
    (grid_same v (laid (if flip then row_of l else map (map tight) rows)) (laid (if flip then map (map tight) rows else row_of l))).
Proof.
  intros H1 H2 Sf Hr. destruct (matrix_of_text ints s1 rows H1) as (a1 & a2 & A1 & A2 & N1 & P1 & T1 & R1).
  destruct (sequence_of_text s2 k l H2) as (N2 & P2 & R & L & F & Ap).
  assert (NE : str_eqb (matrix_text a1 a2 [] [] rows) (sequence k [] l) = false).
  { apply not_true_iff_false. rewrite str_eqb_eq. intro X. destruct (matrix_single a1 a2 rows A1 A2 T1) as [_ Y]. rewrite X, (sequence_split k l L F Ap) in Y. discriminate Y. }
  assert (NS : str_eqb s1 s2 = false).
  { apply not_true_iff_false. rewrite str_eqb_eq. intros ->. rewrite N1 in N2. apply (f_equal (fun z => match z with NStr a => a | _ => [] end)) in N2. rewrite N2, str_eqb_refl in NE. discriminate NE. }
  assert (NE' : str_eqb (sequence k [] l) (matrix_text a1 a2 [] [] rows) = false).
  { apply not_true_iff_false. rewrite str_eqb_eq. intro X. rewrite X, str_eqb_refl in NE. discriminate NE. }
  assert (NS' : str_eqb s2 s1 = false).
  { apply not_true_iff_false. rewrite str_eqb_eq. intro X. rewrite X, str_eqb_refl in NS. discriminate NS. }
  pose proof (mixed_equiv (is_equiv_str W (Datatypes.S n)) v a1 a2 rows k l flip A1 A2 T1 R1 R L F Ap Sf Hr) as Y.
  cbn [is_equiv]. change (is_equiv_str W (Datatypes.S (Datatypes.S n)) ?a ?b) with (is_equiv_body W (is_equiv_str W (Datatypes.S n)) a b). unfold is_equiv_body.
  destruct flip; rewrite P1, P2; cbn [int_str with_intervals]; cbv zeta; rewrite N1, N2, ?NS, ?NS', ?NE, ?NE'; unfold compare_norm; apply yields_try; exact Y.
Qed.
Theorem matrices_verdict n v s1 s2 rows1 rows2 : matrix_of s1 rows1 -> matrix_of s2 rows2 -> (exists st, Inv st) ->
  (forall x y, In x (concat (map (map tight) rows1)) -> In y (concat (map (map tight) rows2)) -> yields W Inv (is_equiv_str W (Datatypes.S n) x y) (v x y)) ->
  yields W Inv (is_equiv W (Datatypes.S (Datatypes.S n)) (Some s1) (Some s2)) (grid_same v (laid (map (map tight) rows1)) (laid (map (map tight) rows2))).
Proof.
  intros H1 H2 [st0 I0] Hr. destruct (matrix_of_text ints s1 rows1 H1) as (a1 & a2 & A1 & A2 & N1 & P1 & T1 & R1).
  destruct (matrix_of_text ints s2 rows2 H2) as (b1 & b2 & B1 & B2 & N2 & P2 & T2 & R2).
  assert (SAME : matrix_text a1 a2 [] [] rows1 = matrix_text b1 b2 [] [] rows2 -> grid_same v (laid (map (map tight) rows1)) (laid (map (map tight) rows2)) = true).
  { intro X. pose proof (rect_split a1 a2 rows1 A1 A2 T1 R1) as S1. pose proof (rect_split b1 b2 rows2 B1 B2 T2 R2) as S2. rewrite X, S2 in S1. injection S1 as E.
    pose proof (table_shape _ (rectangular_map tight rows1 R1)) as G1. pose proof (table_shape _ (rectangular_map tight rows2 R2)) as G2. rewrite E in G2.
    pose proof (shape_laid _ _ _ G1 G2) as L. apply grid_same_iff. rewrite L.
    assert (forall x r, In r (laid (map (map tight) rows2)) -> In x r -> v x x = true) as Rf.
    { intros x r Hr' Hx. assert (Ix1 : In x (concat (map (map tight) rows1))) by (apply (laid_in _ r); [rewrite L|]; assumption).
      assert (Ix2 : In x (concat (map (map tight) rows2))) by (apply (laid_in _ r); assumption).
      destruct (Hr x x Ix1 Ix2 st0 I0) as (st' & Q & _). cbn [is_equiv_str] in Q. unfold is_equiv_body in Q. rewrite str_eqb_refl in Q. injection Q as Q _. symmetry. exact Q. }
    revert Rf. generalize (laid (map (map tight) rows2)) as t. induction t as [|r t IH]; intro Rf; constructor.
    - assert (forall x, In x r -> v x x = true) as Rr by (intros x; apply Rf; left; reflexivity). clear - Rr. induction r as [|x r IHr]; constructor; [apply Rr; left; reflexivity|]. apply IHr. intros; apply Rr; right; assumption.
    - apply IH. intros x r' Hr'. apply Rf. right. exact Hr'. }
  cbn [is_equiv]. change (is_equiv_str W (Datatypes.S (Datatypes.S n)) ?a ?b) with (is_equiv_body W (is_equiv_str W (Datatypes.S n)) a b). unfold is_equiv_body.
  rewrite P1, P2. cbn [int_str with_intervals]. cbv zeta. rewrite N1, N2.
  destruct (str_eqb s1 s2) eqn:Es.
  { rewrite SAME; [apply yields_ret|]. apply str_eqb_eq in Es. rewrite Es, N2 in N1. apply (f_equal (fun z => match z with NStr a => a | _ => [] end)) in N1. symmetry. exact N1. }
  destruct (str_eqb (matrix_text a1 a2 [] [] rows1) (matrix_text b1 b2 [] [] rows2)) eqn:Et.
  { rewrite SAME; [apply yields_ret|]. apply str_eqb_eq, Et. }
  unfold compare_norm. apply yields_try. apply latex_equiv_matrix; assumption.
Qed.
End Whole.

(** ** Matrices of numbers *)
Section Numbers.
Context {V St E Ob Sym Num : Type}.
Variable O : LSympy V.
Variable depth : nat.
Variable emb : lv V -> pyval E Ob.
Variable SP : Sympy St E Ob Sym Num.
Variable num : pyval E Ob -> Q -> bool -> Prop.
Context {A : Type}.
Variable K : arithmetic A.
Variable den : V -> A.
Variable rho : pystr -> A.
Hypothesis F : faithful K V den rho [] (o_md5 _ O) O.
Hypothesis HP : forall s t, parse_text s = Found t -> o_parse _ O s = Ret t.
Hypothesis X : exact SP num.
Hypothesis HA : answers SP num.
Hypothesis HN : forall v q, worth V den O v (of_Q K q) -> exists i, num (emb (LV v)) q i.
Context {V' S : Type}.
Variable IS : ISympy (globals V * St) V' S.
Variable cmp : S -> S -> M (globals V * St) bool.
Variable ints : pystr -> pystr.
Variable iter : list pystr -> list pystr.
Variable iter_ok : forall l, Permutation (iter l) (nodup str_eq_dec l).
Variable lhs : pystr -> M (globals V * St) unit.
Notation J := (joined O depth emb SP).
Notation W m := (with_intervals IS cmp ints iter iter_ok (are_equal_with_simplify J (Datatypes.S m)) lhs).
Notation valued := (valued SP num K rho ints).

Notation text := (fun p : arith * Q => tight (fst p)).
Lemma texts (rows : list (list (arith * Q))) : map (map tight) (map (map fst) rows) = map (map text) rows.
Proof. rewrite map_map. apply map_ext. intro r. apply map_map. Qed.
(** Closeness of the values is what the comparison of the texts finds. *)
Lemma entries_choice n m k rows1 rows2 (st : globals V * St) : depth = Datatypes.S n -> Forall (Forall valued) rows1 -> Forall (Forall valued) rows2 -> unset st ->
  exists v, (forall x y, In x (concat (map (map text) rows1)) -> In y (concat (map (map text) rows2)) -> yields (W m) unset (is_equiv_str (W m) (Datatypes.S k) x y) (v x y)) /\
    (grid_same v (laid (map (map text) rows1)) (laid (map (map text) rows2)) = true <-> Forall2 (Forall2 (fun p1 p2 => scalar_close (snd p1) (snd p2))) (laid rows1) (laid rows2)).
Proof.
  intros D V1 V2 U.
  assert (CV : forall rows : list (list (arith * Q)), Forall (Forall valued) rows -> forall p, In p (concat rows) -> valued p).
  { intros rows Fv p Hp. apply in_concat in Hp. destruct Hp as (r & Hr & Hp). rewrite Forall_forall in Fv. specialize (Fv r Hr). rewrite Forall_forall in Fv. apply Fv, Hp. }
  assert (IT : forall (rows : list (list (arith * Q))) x, In x (concat (map (map text) rows)) -> exists p, In p (concat rows) /\ x = text p).
  { intros rows x Hx. rewrite <- concat_map in Hx. apply in_map_iff in Hx. destruct Hx as (p & <- & Hp). exists p. auto. }
  assert (ST : forall p1 p2, In p1 (concat rows1) -> In p2 (concat rows2) -> settles (is_equiv_str (W m) (Datatypes.S k) (text p1) (text p2)) (fun b => b = true <-> scalar_close (snd p1) (snd p2))).
  { intros p1 p2 I1 I2. destruct (CV rows1 V1 p1 I1) as (a1 & b1 & c1), (CV rows2 V2 p2 I2) as (a2 & b2 & c2).
    exact (numbers_settle O depth emb SP num K den rho F HP X HA HN IS cmp ints iter iter_ok lhs n m k _ _ _ _ _ _ D a1 a2 b1 b2 c1 c2). }
  destruct (finite_choice (fun x y b => yields (W m) unset (is_equiv_str (W m) (Datatypes.S k) x y) b) (concat (map (map text) rows1)) (concat (map (map text) rows2))) as [v Hv].
  { intros x y Hx Hy. destruct (IT rows1 x Hx) as (p1 & I1 & ->), (IT rows2 y Hy) as (p2 & I2 & ->).
    destruct (ST p1 p2 I1 I2 st U) as (b & st' & Eb & Hb & U'). exists b. intros s Us. destruct (ST p1 p2 I1 I2 s Us) as (b' & s' & Eb' & Hb' & Us'). exists s'. split; [|exact Us'].
    assert (b' = b) as <- by (apply eq_true_iff_eq; rewrite Hb, Hb'; tauto). exact Eb'. }
  assert (HV : forall p1 p2, In p1 (concat rows1) -> In p2 (concat rows2) -> (v (text p1) (text p2) = true <-> scalar_close (snd p1) (snd p2))).
  { intros p1 p2 I1 I2. destruct (ST p1 p2 I1 I2 st U) as (b & st' & Eb & Hb & _).
    destruct (Hv (text p1) (text p2)) with (st := st) as (st2 & E2 & _); [rewrite <- concat_map; exact (in_map text (concat rows1) p1 I1)|rewrite <- concat_map; exact (in_map text (concat rows2) p2 I2)|exact U|].
    rewrite Eb in E2. injection E2 as <- _. exact Hb. }
  exists v. split; [exact Hv|]. rewrite grid_same_iff, !laid_map.
  assert (G1 : forall r p, In r (laid rows1) -> In p r -> In p (concat rows1)) by (intros r p; apply laid_in).
  assert (G2 : forall r p, In r (laid rows2) -> In p r -> In p (concat rows2)) by (intros r p; apply laid_in).
  revert G1 G2. generalize (laid rows1) as t1, (laid rows2) as t2. clear - HV. induction t1 as [|r1 t1 IH]; intros [|r2 t2] G1 G2; cbn [map].
  - split; constructor.
  - split; inversion 1.
  - split; inversion 1.
  - specialize (IH t2 (fun r p Hr => G1 r p (or_intror Hr)) (fun r p Hr => G2 r p (or_intror Hr))).
    assert (RW : Forall2 (fun x y => v x y = true) (map text r1) (map text r2) <-> Forall2 (fun p1 p2 : arith * Q => scalar_close (snd p1) (snd p2)) r1 r2).
    { assert (Q1 : forall p, In p r1 -> In p (concat rows1)) by (intro p; apply G1; left; reflexivity). assert (Q2 : forall p, In p r2 -> In p (concat rows2)) by (intro p; apply G2; left; reflexivity).
      clear - HV Q1 Q2. revert r2 Q2. induction r1 as [|p1 r1 IH]; intros [|p2 r2] Q2; cbn [map].
      - split; constructor.
      - split; inversion 1.
      - split; inversion 1.
      - specialize (IH (fun p Hp => Q1 p (or_intror Hp)) r2 (fun p Hp => Q2 p (or_intror Hp))). specialize (HV p1 p2 (Q1 p1 (or_introl eq_refl)) (Q2 p2 (or_introl eq_refl))).
        split; intro Fr; inversion Fr; subst; constructor; try (apply HV; assumption); apply IH; assumption. }
    split; intro Fr; inversion Fr; subst; constructor; try (apply RW; assumption); apply IH; assumption.
Qed.
Theorem matrices_of_numbers n m k s1 s2 rows1 rows2 st : depth = Datatypes.S n ->
  matrix_of s1 (map (map fst) rows1) -> matrix_of s2 (map (map fst) rows2) -> Forall (Forall valued) rows1 -> Forall (Forall valued) rows2 -> unset st ->
  exists b, fst (is_equiv (W m) (Datatypes.S (Datatypes.S k)) (Some s1) (Some s2) st) = Ret b /\
    (b = true <-> Forall2 (Forall2 (fun p1 p2 => scalar_close (snd p1) (snd p2))) (laid rows1) (laid rows2)).
Proof.
  intros D M1 M2 V1 V2 U. destruct (entries_choice n m k rows1 rows2 st D V1 V2 U) as (v & Hv & HV).
  pose proof (matrices_verdict IS cmp ints iter iter_ok (are_equal_with_simplify J (Datatypes.S m)) lhs unset k v s1 s2 _ _ M1 M2 (ex_intro _ st U)) as Y. rewrite !texts in Y.
  destruct (Y Hv st U) as (st' & Eb & _). eexists. split; [rewrite Eb; reflexivity|exact HV].
Qed.
Theorem matrix_or_sequence n m k s1 s2 rows j l st (flip : bool) : depth = Datatypes.S n ->
  matrix_of s1 (map (map fst) rows) -> sequence_text s2 j (map fst l) -> Forall (Forall valued) rows -> Forall valued l -> unset st ->
  (forall s, unset s -> unset (snd (str_to_interval (W m) (sequence j [] (map fst l)) s))) ->
  exists b, fst (is_equiv (W m) (Datatypes.S (Datatypes.S k)) (Some (if flip then s2 else s1)) (Some (if flip then s1 else s2)) st) = Ret b /\
    (b = true <-> exists r, laid rows = [r] /\ Forall2 (fun p1 p2 => scalar_close (snd p1) (snd p2)) (if flip then l else r) (if flip then r else l)).
Proof.
  intros D M1 M2 V1 V2 U Sf. set (rows1 := if flip then [l] else rows). set (rows2 := if flip then rows else [l]).
  assert (L2 : 2 <= length l). { destruct M2 as (gap & l0 & _ & _ & El & _ & L & _). rewrite <- (map_length fst l), El, map_length. exact L. }
  assert (LL : laid [l] = [l]). { unfold laid. cbn [forallb]. destruct l as [|a [|b l']]; [cbn in L2; lia|cbn in L2; lia|reflexivity]. }
  destruct (entries_choice n m k rows1 rows2 st D) as (v & Hv & HV); [destruct flip; [constructor; [exact V2|constructor]|exact V1]|destruct flip; [exact V1|constructor; [exact V2|constructor]]|exact U|].
  assert (RO : row_of (map fst l) = map (map text) [l]) by (unfold row_of; cbn [map]; rewrite map_map; reflexivity).
  pose proof (mixed_verdict IS cmp ints iter iter_ok (are_equal_with_simplify J (Datatypes.S m)) lhs unset k v s1 s2 _ j _ flip M1 M2 Sf) as Y. rewrite texts, RO in Y.
  assert (Y' : yields (W m) unset (is_equiv (W m) (Datatypes.S (Datatypes.S k)) (Some (if flip then s2 else s1)) (Some (if flip then s1 else s2))) (grid_same v (laid (map (map text) rows1)) (laid (map (map text) rows2)))).
  { destruct flip; apply Y; exact Hv. }
  destruct (Y' st U) as (st' & Eb & _). eexists. split; [rewrite Eb; reflexivity|]. rewrite HV. unfold rows1, rows2. destruct flip; rewrite LL.
  - split; [intro Fr; inversion Fr as [|? r ? t Fh Ft Ea Eb']; subst; inversion Ft; subst; exists r; auto|intros (r & -> & Fr); constructor; [exact Fr|constructor]].
  - split; [intro Fr; inversion Fr as [|r ? t ? Fh Ft Ea Eb']; subst; inversion Ft; subst; exists r; auto|intros (r & -> & Fr); constructor; [exact Fr|constructor]].
Qed.
End Numbers.
