(** Properties C108, C109: matrices of numbers, from their text to the verdict. *)
From Coq Require Import String List NArith ZArith QArith Qcanon Bool Lia Permutation.
From Verif Require Import PyStr NumTheory Spec Normalize Monad MonadTheory Split SplitTheory Eval Interval IntervalEval L2S L2SValue DemoL2S Grammar
  Parser ParserNum DemoSympy Arith LatexForm Answer Pipeline AnswerNum DemoPipe SeqAuto SeqForm Sequence SeqNum MatAuto MatForm MatNum Props_Answer Props_Seq.
Import ListNotations.
Local Close Scope Qc_scope. Local Close Scope Q_scope. Local Open Scope nat_scope.
Local Ltac vm := vm_compute; reflexivity.

(** ** C108 *)
Theorem C108_normal ints e1 e2 sp gap rows : sp = [] \/ sp = [32%N] -> gap = [] \/ gap = [32%N] -> In e1 delimiters -> In e2 delimiters -> table sp rows -> low_table rows ->
  string_normalize ints (matrix_text e1 e2 sp gap rows) = NStr (matrix_text (PyStr.lower e1) (PyStr.lower e2) [] [] (map (map low) rows)) /\
  strip (matrix_text e1 e2 sp gap rows) = matrix_text e1 e2 sp gap rows.
Proof. exact (matrix_normal ints e1 e2 sp gap rows). Qed.
Print Assumptions C108_normal.
Theorem C108_split e1 e2 rows n : 0 < n -> In e1 delimiters -> In e2 delimiters -> rows <> [] -> Forall (fun r => length r = n) rows -> Forall (Forall item) rows ->
  split_matrix (matrix_text e1 e2 [] [] rows) = Ret (table_result (map (map tight) rows)).
Proof. exact (matrix_split e1 e2 rows n). Qed.
Print Assumptions C108_split.
Theorem C108_matrices {V St E Ob Sym Num A V' S : Type} (O : LSympy V) depth (emb : lv V -> pyval E Ob) (SP : Sympy St E Ob Sym Num) num
  (K : arithmetic A) den rho (IS : ISympy (globals V * St) V' S) cmp ints iter iter_ok lhs n m k s1 s2 rows1 rows2 st :
  faithful K V den rho [] (o_md5 _ O) O -> (forall s t, parse_text s = Found t -> o_parse _ O s = Ret t) ->
  exact SP num -> answers SP num -> (forall v q, worth V den O v (of_Q K q) -> exists i, num (emb (LV v)) q i) ->
  depth = Datatypes.S n -> matrix_of s1 (map (map fst) rows1) -> matrix_of s2 (map (map fst) rows2) ->
  Forall (Forall (valued SP num K rho ints)) rows1 -> Forall (Forall (valued SP num K rho ints)) rows2 -> unset st ->
  exists b, fst (is_equiv (with_intervals IS cmp ints iter iter_ok (are_equal_with_simplify (joined O depth emb SP) (Datatypes.S m)) lhs) (Datatypes.S (Datatypes.S k)) (Some s1) (Some s2) st) = Ret b /\
    (b = true <-> Forall2 (Forall2 (fun p1 p2 => scalar_close (snd p1) (snd p2))) (laid rows1) (laid rows2)).
Proof.
  intros F HP X HA HN. exact (matrices_of_numbers O depth emb SP num K den rho F HP X HA HN IS cmp ints iter iter_ok lhs n m k s1 s2 rows1 rows2 st).
Qed.
Print Assumptions C108_matrices.
(** ** C109 *)
Theorem C109_sequence {V St E Ob Sym Num A V' S : Type} (O : LSympy V) depth (emb : lv V -> pyval E Ob) (SP : Sympy St E Ob Sym Num) num
  (K : arithmetic A) den rho (IS : ISympy (globals V * St) V' S) cmp ints iter iter_ok lhs n m k s1 s2 rows j l st (flip : bool) :
  faithful K V den rho [] (o_md5 _ O) O -> (forall s t, parse_text s = Found t -> o_parse _ O s = Ret t) ->
  exact SP num -> answers SP num -> (forall v q, worth V den O v (of_Q K q) -> exists i, num (emb (LV v)) q i) ->
  depth = Datatypes.S n -> matrix_of s1 (map (map fst) rows) -> sequence_text s2 j (map fst l) ->
  Forall (Forall (valued SP num K rho ints)) rows -> Forall (valued SP num K rho ints) l -> unset st ->
  (forall s, unset s -> unset (snd (str_to_interval (with_intervals IS cmp ints iter iter_ok (are_equal_with_simplify (joined O depth emb SP) (Datatypes.S m)) lhs) (sequence j [] (map fst l)) s))) ->
  exists b, fst (is_equiv (with_intervals IS cmp ints iter iter_ok (are_equal_with_simplify (joined O depth emb SP) (Datatypes.S m)) lhs) (Datatypes.S (Datatypes.S k))
      (Some (if flip then s2 else s1)) (Some (if flip then s1 else s2)) st) = Ret b /\
    (b = true <-> exists r, laid rows = [r] /\ Forall2 (fun p1 p2 => scalar_close (snd p1) (snd p2)) (if flip then l else r) (if flip then r else l)).
Proof.
  intros F HP X HA HN. exact (matrix_or_sequence O depth emb SP num K den rho F HP X HA HN IS cmp ints iter iter_ok lhs n m k s1 s2 rows j l st flip).
Qed.
Print Assumptions C109_sequence.

(* the demonstration back end meets the hypotheses *)
Lemma known_matrix e1 e2 sp gap rows : In e1 delimiters -> In e2 delimiters -> sp = [] \/ sp = [32%N] -> gap = [] \/ gap = [32%N] -> rectangular rows ->
  Forall (Forall known101) rows -> sp = [] \/ Forall (Forall (fun p => unit_first (fst p) = false)) rows ->
  matrix_of (matrix_text e1 e2 sp gap (map (map fst) rows)) (map (map fst) rows) /\ Forall (Forall demo_valued) rows.
Proof.
  intros H1 H2 Hs Hg Rc F Uf.
  assert (KP : forall r p, In r rows -> In p r -> demo_valued p /\ item (fst p) /\ low (fst p) = fst p).
  { intros r p Hr Hp. apply known_ok. rewrite Forall_forall in F. specialize (F r Hr). rewrite Forall_forall in F. exact (F p Hp). }
  split; [|apply Forall_forall; intros r Hr; apply Forall_forall; intros p Hp; apply (KP r p Hr Hp)].
  assert (El : map (map low) (map (map fst) rows) = map (map fst) rows).
  { rewrite map_map. apply map_ext_in. intros r Hr. rewrite map_map. apply map_ext_in. intros p Hp. apply (KP r p Hr Hp). }
  exists e1, e2, sp, gap, (map (map fst) rows). split; [reflexivity|]. split; [exact Hs|]. split; [exact Hg|]. split; [exact H1|]. split; [exact H2|]. split; [symmetry; exact El|].
  destruct Rc as (Nr & n & Hn & L). split; [|split].
  - split; [destruct rows; [congruence|discriminate]|]. apply Forall_map, Forall_forall. intros r Hr. rewrite Forall_forall in L. specialize (L r Hr). split; [destruct r; [cbn in L; lia|discriminate]|].
    apply Forall_map, Forall_forall. intros p Hp. split; [apply (KP r p Hr Hp)|]. destruct Uf as [Z|Uf]; [left; exact Z|right]. rewrite Forall_forall in Uf. specialize (Uf r Hr). rewrite Forall_forall in Uf. exact (Uf p Hp).
  - unfold low_table. apply Forall_map, Forall_forall. intros r Hr. apply Forall_map, Forall_forall. intros p Hp. destruct (KP r p Hr Hp) as (_ & [We _] & E). rewrite E. exact We.
  - apply rectangular_map. split; [exact Nr|]. exists n. auto.
Qed.
Local Ltac mat := apply known_matrix; [cbn; tauto|cbn; tauto|solve [auto]|solve [auto]|split; [discriminate|first [exists 1; split; [lia|solve [repeat constructor]]|exists 2; split; [lia|solve [repeat constructor]]|exists 3; split; [lia|solve [repeat constructor]]]]|repeat constructor; cbn; tauto|
  solve [left; reflexivity|right; repeat constructor]].
Definition a108 := [[int101 1; half101]; [int101 2; int101 3]].
Definition b108 := [[int101 1; quarters101]; [int101 2; int101 3]].
Definition c108 := [[int101 1; quarters101]; [int101 3; int101 2]].
Definition row108 := [[int101 1; half101; int101 3]].
Definition col108 := [[int101 1]; [quarters101]; [int101 3]].
Lemma far101 x y q p : In (x, q) [(1, 1%Q); (2, 2%Q); (3, 3%Q)]%Z -> In (y, p) [(1, 1%Q); (2, 2%Q); (3, 3%Q)]%Z -> x <> y -> ~ scalar_close q p.
Proof.
  intros I1 I2 N C. cbn in I1, I2. repeat destruct I1 as [I1|I1]; try contradiction; injection I1 as <- <-; repeat destruct I2 as [I2|I2]; try contradiction; injection I2 as <- <-; try congruence;
    destruct C as [X|[[X Y]|[[X Y]|(X & Y & Z)]]]; try (vm_compute in X; discriminate X); try (vm_compute in Y; discriminate Y); try (vm_compute in Z; discriminate Z);
    (apply X; vm_compute; tauto) || (apply Y; vm_compute; tauto) || (apply Y; vm).
Qed.
Example C108_ex : matrix_text (u "p") (u "p") [32%N] [32%N] (map (map fst) a108) = u "\begin{pmatrix} 1 & \frac{1}{2} \\ 2 & 3 \end{pmatrix}" /\
  matrix_text (u "b") (u "b") [] [] (map (map fst) b108) = u "\begin{bmatrix}1&\frac{2}{4}\\2&3\end{bmatrix}" /\
  matrix_of (u "\begin{pmatrix} 1 & \frac{1}{2} \\ 2 & 3 \end{pmatrix}") (map (map fst) a108) /\ Forall (Forall demo_valued) a108 /\ Forall (Forall demo_valued) b108 /\
  laid col108 = [[int101 1; quarters101; int101 3]] /\ laid a108 = a108.
Proof.
  assert (matrix_of (matrix_text (u "p") (u "p") [32%N] [32%N] (map (map fst) a108)) (map (map fst) a108) /\ Forall (Forall demo_valued) a108) as [T1 F1] by mat.
  assert (matrix_of (matrix_text (u "b") (u "b") [] [] (map (map fst) b108)) (map (map fst) b108) /\ Forall (Forall demo_valued) b108) as [T2 F2] by mat.
  split; [vm|]. split; [vm|]. split; [exact T1|]. split; [exact F1|]. split; [exact F2|]. split; reflexivity.
Qed.
(* the same entries, other entries *)
Example C108_ex2 {V' S} (IS : ISympy (globals ex * stream) V' S) cmp iter iter_ok lhs :
  let W := with_intervals IS cmp same iter iter_ok (whole 3 3) lhs in
  fst (is_equiv W 3 (Some (u "\begin{pmatrix} 1 & \frac{1}{2} \\ 2 & 3 \end{pmatrix}")) (Some (u "\begin{bmatrix}1&\frac{2}{4}\\2&3\end{bmatrix}")) start93) = Ret true /\
  fst (is_equiv W 3 (Some (u "\begin{pmatrix} 1 & \frac{1}{2} \\ 2 & 3 \end{pmatrix}")) (Some (u "\begin{bmatrix}1&\frac{2}{4}\\3&2\end{bmatrix}")) start93) = Ret false.
Proof.
  intro W. destruct C93_met as (M1 & M2 & M3 & M4 & M5).
  assert (matrix_of (matrix_text (u "p") (u "p") [32%N] [32%N] (map (map fst) a108)) (map (map fst) a108) /\ Forall (Forall demo_valued) a108) as [T1 F1] by mat.
  assert (matrix_of (matrix_text (u "b") (u "b") [] [] (map (map fst) b108)) (map (map fst) b108) /\ Forall (Forall demo_valued) b108) as [T2 F2] by mat.
  assert (matrix_of (matrix_text (u "b") (u "b") [] [] (map (map fst) c108)) (map (map fst) c108) /\ Forall (Forall demo_valued) c108) as [T3 F3] by mat.
  split.
  - destruct (C108_matrices DO 4 demo_emb DS near DemoArith (demo_den zero) (fun x => (zero x, false)) IS cmp same iter iter_ok lhs 3 3 1 _ _ a108 b108 start93
      M1 M2 M3 M4 M5 eq_refl T1 T2 F1 F2 eq_refl) as (b & Eb & Hb).
    refine (eq_trans Eb _). f_equal. apply Hb. repeat constructor; left; vm.
  - destruct (C108_matrices DO 4 demo_emb DS near DemoArith (demo_den zero) (fun x => (zero x, false)) IS cmp same iter iter_ok lhs 3 3 1 _ _ a108 c108 start93
      M1 M2 M3 M4 M5 eq_refl T1 T3 F1 F3 eq_refl) as (b & Eb & Hb).
    refine (eq_trans Eb _). f_equal. destruct b; [exfalso|reflexivity]. pose proof (proj1 Hb eq_refl) as Fr. inversion Fr as [|? ? ? ? _ Fr2]; subst. inversion Fr2 as [|? ? ? ? Fr3 _]; subst. inversion Fr3 as [|? ? ? ? C _]; subst.
    exact (far101 2 3 2%Q 3%Q ltac:(cbn; tauto) ltac:(cbn; tauto) ltac:(discriminate) C).
Qed.
(** Finding: a row and a column of the same numbers are taken for the same matrix. *)
Theorem C108_shape_refuted {V' S} (IS : ISympy (globals ex * stream) V' S) cmp iter iter_ok lhs :
  exists s1 s2 rows1 rows2, let W := with_intervals IS cmp same iter iter_ok (whole 3 3) lhs in
    matrix_of s1 (map (map fst) rows1) /\ matrix_of s2 (map (map fst) rows2) /\ Forall (Forall demo_valued) rows1 /\ Forall (Forall demo_valued) rows2 /\
    length rows1 <> length rows2 /\ fst (is_equiv W 3 (Some s1) (Some s2) start93) = Ret true.
Proof.
  exists (u "\begin{pmatrix}1&\frac{1}{2}&3\end{pmatrix}"), (u "\begin{pmatrix}1\\\frac{2}{4}\\3\end{pmatrix}"), row108, col108. intro W. destruct C93_met as (M1 & M2 & M3 & M4 & M5).
  assert (matrix_of (matrix_text (u "p") (u "p") [] [] (map (map fst) row108)) (map (map fst) row108) /\ Forall (Forall demo_valued) row108) as [T1 F1] by mat.
  assert (matrix_of (matrix_text (u "p") (u "p") [] [] (map (map fst) col108)) (map (map fst) col108) /\ Forall (Forall demo_valued) col108) as [T2 F2] by mat.
  split; [exact T1|]. split; [exact T2|]. split; [exact F1|]. split; [exact F2|]. split; [discriminate|].
  destruct (C108_matrices DO 4 demo_emb DS near DemoArith (demo_den zero) (fun x => (zero x, false)) IS cmp same iter iter_ok lhs 3 3 1 _ _ row108 col108 start93
      M1 M2 M3 M4 M5 eq_refl T1 T2 F1 F2 eq_refl) as (b & Eb & Hb).
  refine (eq_trans Eb _). f_equal. apply Hb. repeat constructor; left; vm.
Qed.
Print Assumptions C108_shape_refuted.
(** Finding: a determinant is taken for the matrix itself. *)
Theorem C108_determinant_refuted {V' S} (IS : ISympy (globals ex * stream) V' S) cmp iter iter_ok lhs :
  exists rows, let W := with_intervals IS cmp same iter iter_ok (whole 3 3) lhs in
    matrix_of (matrix_text (u "v") (u "v") [] [] (map (map fst) rows)) (map (map fst) rows) /\ matrix_of (matrix_text (u "p") (u "p") [] [] (map (map fst) rows)) (map (map fst) rows) /\
    Forall (Forall demo_valued) rows /\ Forall (fun r => length r = length rows) rows /\ 2 <= length rows /\
    fst (is_equiv W 3 (Some (matrix_text (u "v") (u "v") [] [] (map (map fst) rows))) (Some (matrix_text (u "p") (u "p") [] [] (map (map fst) rows))) start93) = Ret true.
Proof.
  exists a108. intro W. destruct C93_met as (M1 & M2 & M3 & M4 & M5).
  assert (matrix_of (matrix_text (u "v") (u "v") [] [] (map (map fst) a108)) (map (map fst) a108) /\ Forall (Forall demo_valued) a108) as [T1 F1] by mat.
  assert (matrix_of (matrix_text (u "p") (u "p") [] [] (map (map fst) a108)) (map (map fst) a108) /\ Forall (Forall demo_valued) a108) as [T2 F2] by mat.
  split; [exact T1|]. split; [exact T2|]. split; [exact F1|]. split; [repeat constructor|]. split; [cbn; lia|].
  destruct (C108_matrices DO 4 demo_emb DS near DemoArith (demo_den zero) (fun x => (zero x, false)) IS cmp same iter iter_ok lhs 3 3 1 _ _ a108 a108 start93
      M1 M2 M3 M4 M5 eq_refl T1 T2 F1 F2 eq_refl) as (b & Eb & Hb).
  refine (eq_trans Eb _). f_equal. apply Hb. repeat constructor; left; vm.
Qed.
Print Assumptions C108_determinant_refuted.
(* three items: looking for an interval changes nothing *)
Lemma long_safe {St V' S} (IS : ISympy St V' S) cmp iter iter_ok simp lhs j l st : roundish j -> Forall item l -> 3 <= length l ->
  snd (str_to_interval (with_intervals IS cmp same iter iter_ok simp lhs) (sequence j [] l) st) = st.
Proof. intros R F L. unfold str_to_interval, try_bare, bind. cbn [interval_body with_intervals]. rewrite (long_no_interval IS j l st R F L). reflexivity. Qed.
Local Ltac known := apply known_text; [solve [auto]|discriminate|cbn; lia|repeat constructor; cbn; tauto| |cbn; repeat split];
  solve [repeat constructor; (left; reflexivity) || (right; vm)].
Lemma items101 l : Forall known101 l -> Forall item (map fst l).
Proof. intro F. apply Forall_map. eapply Forall_impl; [|exact F]. intros p Hp. apply (known_ok p Hp). Qed.
Example C109_ex {V' S} (IS : ISympy (globals ex * stream) V' S) cmp iter iter_ok lhs :
  let W := with_intervals IS cmp same iter iter_ok (whole 3 3) lhs in
  fst (is_equiv W 3 (Some (u "\begin{pmatrix}1\\\frac{2}{4}\\3\end{pmatrix}")) (Some (u "(1, \frac{1}{2}, 3)")) start93) = Ret true /\
  fst (is_equiv W 3 (Some (u "(1, \frac{1}{2}, 3)")) (Some (u "\begin{pmatrix}1\\\frac{2}{4}\\3\end{pmatrix}")) start93) = Ret true /\
  fst (is_equiv W 3 (Some (u "\begin{pmatrix} 1 & \frac{1}{2} \\ 2 & 3 \end{pmatrix}")) (Some (u "(1, \frac{1}{2}, 3)")) start93) = Ret false.
Proof.
  intro W. destruct C93_met as (M1 & M2 & M3 & M4 & M5).
  assert (sequence_text (sequence (Some KTuple) [32%N] (map fst a101)) (Some KTuple) (map fst a101) /\ Forall demo_valued a101) as [T1 F1] by known.
  assert (matrix_of (matrix_text (u "p") (u "p") [] [] (map (map fst) col108)) (map (map fst) col108) /\ Forall (Forall demo_valued) col108) as [T2 F2] by mat.
  assert (matrix_of (matrix_text (u "p") (u "p") [32%N] [32%N] (map (map fst) a108)) (map (map fst) a108) /\ Forall (Forall demo_valued) a108) as [T3 F3] by mat.
  assert (SF : forall s, unset s -> unset (snd (str_to_interval W (sequence (Some KTuple) [] (map fst a101)) s))).
  { intros s Us. unfold W. rewrite long_safe; [exact Us|discriminate|apply items101; repeat constructor; cbn; tauto|cbn; lia]. }
  pose proof (fun s1 s2 rows => C109_sequence DO 4 demo_emb DS near DemoArith (demo_den zero) (fun x => (zero x, false)) IS cmp same iter iter_ok lhs 3 3 1 s1 s2 rows (Some KTuple) a101 start93) as T.
  split; [|split].
  - destruct (T _ _ col108 false M1 M2 M3 M4 M5 eq_refl T2 T1 F2 F1 eq_refl SF) as (b & Eb & Hb). refine (eq_trans Eb _). f_equal. apply Hb. eexists. split; [reflexivity|]. repeat constructor; left; vm.
  - destruct (T _ _ col108 true M1 M2 M3 M4 M5 eq_refl T2 T1 F2 F1 eq_refl SF) as (b & Eb & Hb). refine (eq_trans Eb _). f_equal. apply Hb. eexists. split; [reflexivity|]. repeat constructor; left; vm.
  - destruct (T _ _ a108 false M1 M2 M3 M4 M5 eq_refl T3 T1 F3 F1 eq_refl SF) as (b & Eb & Hb). refine (eq_trans Eb _). f_equal. destruct b; [exfalso|reflexivity]. destruct (proj1 Hb eq_refl) as (r & X & _). discriminate X.
Qed.
(** Finding: bare items, which are otherwise compared in any order, are compared in order with a matrix. *)
Theorem C109_order_refuted {V' S} (IS : ISympy (globals ex * stream) V' S) cmp iter iter_ok lhs :
  exists s1 s2 s3 rows l1 l2, let W := with_intervals IS cmp same iter iter_ok (whole 3 3) lhs in
    matrix_of s1 (map (map fst) rows) /\ sequence_text s2 None (map fst l1) /\ sequence_text s3 None (map fst l2) /\ Forall (Forall demo_valued) rows /\ Forall demo_valued l1 /\ Forall demo_valued l2 /\
    fst (is_equiv W 3 (Some s2) (Some s3) start93) = Ret true /\ fst (is_equiv W 3 (Some s1) (Some s2) start93) = Ret true /\ fst (is_equiv W 3 (Some s1) (Some s3) start93) = Ret false.
Proof.
  exists (u "\begin{pmatrix}1\\\frac{2}{4}\\3\end{pmatrix}"), (u "1, \frac{1}{2}, 3"), (u "3,\frac{2}{4},1"), col108, a101, c101. intro W. destruct C93_met as (M1 & M2 & M3 & M4 & M5).
  assert (matrix_of (matrix_text (u "p") (u "p") [] [] (map (map fst) col108)) (map (map fst) col108) /\ Forall (Forall demo_valued) col108) as [T1 F1] by mat.
  assert (sequence_text (sequence None [32%N] (map fst a101)) None (map fst a101) /\ Forall demo_valued a101) as [T2 F2] by known.
  assert (sequence_text (sequence None [] (map fst c101)) None (map fst c101) /\ Forall demo_valued c101) as [T3 F3] by known.
  assert (SF : forall l, Forall known101 l -> 3 <= length l -> forall s, unset s -> unset (snd (str_to_interval W (sequence None [] (map fst l)) s))).
  { intros l Fl Ll s Us. unfold W. rewrite long_safe; [exact Us|discriminate|apply items101, Fl|rewrite map_length; exact Ll]. }
  pose proof (fun s2 l => C109_sequence DO 4 demo_emb DS near DemoArith (demo_den zero) (fun x => (zero x, false)) IS cmp same iter iter_ok lhs 3 3 1 _ s2 col108 None l start93 false M1 M2 M3 M4 M5 eq_refl T1) as T.
  split; [exact T1|]. split; [exact T2|]. split; [exact T3|]. split; [exact F1|]. split; [exact F2|]. split; [exact F3|]. split; [|split].
  - destruct (C101_ex2 IS cmp iter iter_ok lhs) as (_ & _ & X & _). exact X.
  - destruct (T _ a101 T2 F1 F2 eq_refl (SF a101 ltac:(repeat constructor; cbn; tauto) (le_n _))) as (b & Eb & Hb). refine (eq_trans Eb _). f_equal. apply Hb. eexists. split; [reflexivity|]. repeat constructor; left; vm.
  - destruct (T _ c101 T3 F1 F3 eq_refl (SF c101 ltac:(repeat constructor; cbn; tauto) (le_n _))) as (b & Eb & Hb). refine (eq_trans Eb _). f_equal. destruct b; [exfalso|reflexivity].
    destruct (proj1 Hb eq_refl) as (r & X & Fr). injection X as <-. inversion Fr as [|? ? ? ? C _]; subst. exact (far101 1 3 1%Q 3%Q ltac:(cbn; tauto) ltac:(cbn; tauto) ltac:(discriminate) C).
Qed.
Print Assumptions C109_order_refuted.
