(** Property C101: sequences of numbers, from their text to the verdict. *)
From Coq Require Import String List NArith ZArith QArith Qcanon Bool Lia Permutation.
From Verif Require Import PyStr NumTheory Spec Normalize Monad MonadTheory Split SplitTheory Eval Interval IntervalEval L2S L2SValue DemoL2S Grammar
  Parser ParserNum DemoSympy Arith LatexForm Answer Pipeline AnswerNum DemoPipe SeqAuto SeqForm Sequence SeqNum Props_Answer.
Import ListNotations.
Local Close Scope Qc_scope. Local Close Scope Q_scope. Local Open Scope nat_scope.
Local Ltac vm := vm_compute; reflexivity.

(** ** C101 *)
Theorem C101_normal ints k gap l : gap = [] \/ gap = [32%N] -> 2 <= length l -> roundish k -> Forall item l -> Forall wf (map low l) ->
  Forall (after_gap gap) (tl l) -> apart (map tight (map low l)) ->
  string_normalize ints (sequence k gap l) = NStr (sequence k [] (map low l)) /\ strip (sequence k gap l) = sequence k gap l.
Proof. exact (sequence_normal ints k gap l). Qed.
Print Assumptions C101_normal.
Theorem C101_split k l : 2 <= length l -> Forall item l -> apart (map tight l) -> split_tuple (sequence k [] l) None = Ret (SSeq (bracket_kind k) (map tight l)).
Proof. exact (sequence_split k l). Qed.
Print Assumptions C101_split.
Theorem C101_tuples {V St E Ob Sym Num A V' S : Type} (O : LSympy V) depth (emb : lv V -> pyval E Ob) (SP : Sympy St E Ob Sym Num) num
  (K : arithmetic A) den rho (IS : ISympy (globals V * St) V' S) cmp ints iter iter_ok lhs n m k s1 s2 j1 j2 l1 l2 st :
  faithful K V den rho [] (o_md5 _ O) O -> (forall s t, parse_text s = Found t -> o_parse _ O s = Ret t) ->
  exact SP num -> answers SP num -> (forall v q, worth V den O v (of_Q K q) -> exists i, num (emb (LV v)) q i) ->
  depth = Datatypes.S n -> sequence_text s1 (Some j1) (map fst l1) -> sequence_text s2 (Some j2) (map fst l2) ->
  Forall (valued SP num K rho ints) l1 -> Forall (valued SP num K rho ints) l2 -> unset st -> 3 <= length l1 -> 3 <= length l2 ->
  exists b, fst (is_equiv (with_intervals IS cmp ints iter iter_ok (are_equal_with_simplify (joined O depth emb SP) (Datatypes.S m)) lhs) (Datatypes.S (Datatypes.S k)) (Some s1) (Some s2) st) = Ret b /\
    (b = true <-> j1 = j2 /\ Forall2 (fun p1 p2 => scalar_close (snd p1) (snd p2)) l1 l2).
Proof.
  intros F HP X HA HN. exact (tuples_of_numbers O depth emb SP num K den rho F HP X HA HN IS cmp ints iter iter_ok lhs n m k s1 s2 j1 j2 l1 l2 st).
Qed.
Print Assumptions C101_tuples.
Theorem C101_pairs {V St E Ob Sym Num A V' S : Type} (O : LSympy V) depth (emb : lv V -> pyval E Ob) (SP : Sympy St E Ob Sym Num) num
  (K : arithmetic A) den rho (IS : ISympy (globals V * St) V' S) cmp ints iter iter_ok lhs n m k s1 s2 j1 j2 l1 l2 c sp st :
  faithful K V den rho [] (o_md5 _ O) O -> (forall s t, parse_text s = Found t -> o_parse _ O s = Ret t) ->
  exact SP num -> answers SP num -> (forall v q, worth V den O v (of_Q K q) -> exists i, num (emb (LV v)) q i) ->
  depth = Datatypes.S n -> sequence_text s1 (Some j1) (map fst l1) -> sequence_text s2 (Some j2) (map fst l2) ->
  Forall (valued SP num K rho ints) l1 -> Forall (valued SP num K rho ints) l2 -> unset st ->
  (forall s, unset s -> exists s', possible_intervals (with_intervals IS cmp ints iter iter_ok (are_equal_with_simplify (joined O depth emb SP) (Datatypes.S m)) lhs)
     (sequence (Some j1) [] (map fst l1)) (sequence (Some j2) [] (map fst l2)) s = (Ret (c, sp), s') /\ unset s') ->
  exists b, fst (is_equiv (with_intervals IS cmp ints iter iter_ok (are_equal_with_simplify (joined O depth emb SP) (Datatypes.S m)) lhs) (Datatypes.S (Datatypes.S k)) (Some s1) (Some s2) st) = Ret b /\
    (b = true <-> c = true \/ (j1 = j2 /\ Forall2 (fun p1 p2 => scalar_close (snd p1) (snd p2)) l1 l2)).
Proof.
  intros F HP X HA HN. exact (pairs_of_numbers O depth emb SP num K den rho F HP X HA HN IS cmp ints iter iter_ok lhs n m k s1 s2 j1 j2 l1 l2 c sp st).
Qed.
Print Assumptions C101_pairs.
Theorem C101_bare {V St E Ob Sym Num A V' S : Type} (O : LSympy V) depth (emb : lv V -> pyval E Ob) (SP : Sympy St E Ob Sym Num) num
  (K : arithmetic A) den rho (IS : ISympy (globals V * St) V' S) cmp ints iter iter_ok lhs n m k s1 s2 l1 l2 st :
  faithful K V den rho [] (o_md5 _ O) O -> (forall s t, parse_text s = Found t -> o_parse _ O s = Ret t) ->
  exact SP num -> answers SP num -> (forall v q, worth V den O v (of_Q K q) -> exists i, num (emb (LV v)) q i) ->
  depth = Datatypes.S n -> sequence_text s1 None (map fst l1) -> sequence_text s2 None (map fst l2) ->
  Forall (valued SP num K rho ints) l1 -> Forall (valued SP num K rho ints) l2 -> unset st ->
  has_bracket (sequence None [] (map fst l1)) = false \/ (3 <= length l1 /\ 3 <= length l2) -> well_separated l1 l2 ->
  exists b, fst (is_equiv (with_intervals IS cmp ints iter iter_ok (are_equal_with_simplify (joined O depth emb SP) (Datatypes.S m)) lhs) (Datatypes.S (Datatypes.S k)) (Some s1) (Some s2) st) = Ret b /\
    (b = true -> same_values l1 l2) /\ (one_spelling l1 -> one_spelling l2 -> same_values l1 l2 -> b = true).
Proof.
  intros F HP X HA HN. exact (bare_numbers O depth emb SP num K den rho F HP X HA HN IS cmp ints iter iter_ok lhs n m k s1 s2 l1 l2 st).
Qed.
Print Assumptions C101_bare.
Theorem C101_mixed {V St E Ob Sym Num A V' S : Type} (O : LSympy V) depth (emb : lv V -> pyval E Ob) (SP : Sympy St E Ob Sym Num) num
  (K : arithmetic A) den rho (IS : ISympy (globals V * St) V' S) cmp ints iter iter_ok lhs n m k s1 s2 k1 k2 l1 l2 st :
  faithful K V den rho [] (o_md5 _ O) O -> (forall s t, parse_text s = Found t -> o_parse _ O s = Ret t) ->
  exact SP num -> answers SP num -> (forall v q, worth V den O v (of_Q K q) -> exists i, num (emb (LV v)) q i) ->
  depth = Datatypes.S n -> sequence_text s1 k1 (map fst l1) -> sequence_text s2 k2 (map fst l2) ->
  Forall (valued SP num K rho ints) l1 -> Forall (valued SP num K rho ints) l2 -> unset st -> 3 <= length l1 -> 3 <= length l2 -> k1 <> k2 ->
  fst (is_equiv (with_intervals IS cmp ints iter iter_ok (are_equal_with_simplify (joined O depth emb SP) (Datatypes.S m)) lhs) (Datatypes.S (Datatypes.S k)) (Some s1) (Some s2) st) = Ret false.
Proof.
  intros F HP X HA HN. exact (mixed_numbers O depth emb SP num K den rho F HP X HA HN IS cmp ints iter iter_ok lhs n m k s1 s2 k1 k2 l1 l2 st).
Qed.
Print Assumptions C101_mixed.

(* the demonstration back end meets the hypotheses *)
Definition same (s : pystr) : pystr := s.
Notation demo_valued := (valued DS near DemoArith (fun x => (zero x, false)) same).
Definition int101 (z : Z) : arith * Q := (int_expr z, inject_Z z).
Definition half101 : arith * Q := (Frac (Num (u "1")) (Num (u "2")), (1 # 2)%Q).
Definition quarters101 : arith * Q := (Frac (Num (u "2")) (Num (u "4")), (1 # 2)%Q).
Definition doubled101 : arith * Q := (Frac (Num (u "4")) (Num (u "2")), (2 # 1)%Q).
Local Ltac numeral := cbn; repeat split; repeat constructor; try discriminate.
Lemma valued_int z : In z [1; 2; 3; 5]%Z -> demo_valued (int101 z) /\ item (fst (int101 z)) /\ low (fst (int101 z)) = fst (int101 z).
Proof.
  intro H. assert (demo_valued (int101 z)) as Vz.
  { split; [|split; [|apply demo_python]].
    - unfold int101, fst. rewrite int_expr_text. apply C93_integer; [|reflexivity]. cbn in H. lia.
    - apply demo_number; [|apply Qc_is_canon]; cbn in H; destruct H as [<-|[<-|[<-|[<-|[]]]]]; vm. }
  split; [exact Vz|]. destruct Vz as ((Wz & _) & _). split; [|cbn in H; destruct H as [<-|[<-|[<-|[<-|[]]]]]; vm].
  split; [exact Wz|]. cbn in H; destruct H as [<-|[<-|[<-|[<-|[]]]]]; exact I.
Qed.
Lemma valued_frac p : In p [half101; quarters101; doubled101] -> demo_valued p /\ item (fst p) /\ low (fst p) = fst p.
Proof.
  intro H. assert (wf (fst p) /\ plain (fst p) /\ literal (fst p) = false) as (Wp & Pp & Lp) by (cbn in H; destruct H as [<-|[<-|[<-|[]]]]; (split; [numeral|split; [numeral|reflexivity]])).
  split; [split; [|split; [|apply demo_python]]|].
  - apply C93_written; [assumption..|]. constructor.
  - apply demo_number; [|apply Qc_is_canon]; cbn in H; destruct H as [<-|[<-|[<-|[]]]]; vm.
  - split; [split; [exact Wp|]|]; cbn in H; destruct H as [<-|[<-|[<-|[]]]]; try vm; numeral.
Qed.
Definition known101 (p : arith * Q) : Prop := In p (map int101 [1; 2; 3; 5]%Z ++ [half101; quarters101; doubled101]).
Lemma known_ok p : known101 p -> demo_valued p /\ item (fst p) /\ low (fst p) = fst p.
Proof.
  intro H. apply in_app_or in H. destruct H as [H|H]; [|apply valued_frac, H]. apply in_map_iff in H. destruct H as (z & <- & Hz). apply valued_int, Hz.
Qed.
Lemma known_text k gap l : gap = [] \/ gap = [32%N] -> roundish k -> 2 <= length l -> Forall known101 l -> Forall (after_gap gap) (tl (map fst l)) -> apart (map tight (map fst l)) ->
  sequence_text (sequence k gap (map fst l)) k (map fst l) /\ Forall demo_valued l.
Proof.
  intros G R L F T Ap. assert (map low (map fst l) = map fst l) as El.
  { rewrite map_map. apply map_ext_in. intros p Hp. rewrite Forall_forall in F. apply (known_ok p (F p Hp)). }
  split.
  - exists gap, (map fst l). split; [reflexivity|]. split; [exact G|]. split; [symmetry; exact El|]. split; [exact R|]. split; [rewrite map_length; exact L|].
    assert (Forall item (map fst l)) as Fi. { apply Forall_forall. intros e He. apply in_map_iff in He. destruct He as (p & <- & Hp). rewrite Forall_forall in F. apply (known_ok p (F p Hp)). }
    auto.
  - eapply Forall_impl; [|exact F]. intros p Hp. apply (known_ok p Hp).
Qed.
Definition a101 := [int101 1; half101; int101 3].
Definition b101 := [int101 1; quarters101; int101 3].
Definition c101 := [int101 3; quarters101; int101 1].
Local Ltac each := repeat match goal with H : In _ _ |- _ => cbn in H; destruct H as [<-|[<-|[<-|[]]]] end.
Lemma sep101 : well_separated a101 c101.
Proof.
  intros p1 p2 I1 I2 C. each; try vm; exfalso;
    destruct C as [X|[[X Y]|[[X Y]|(X & Y & Z)]]]; try (vm_compute in X; discriminate X); try (vm_compute in Y; discriminate Y); try (vm_compute in Z; discriminate Z);
    (apply X; vm_compute; tauto) || (apply Y; vm_compute; tauto) || (apply Y; vm).
Qed.
Lemma spelled_a101 : one_spelling a101.
Proof. intros p p' I1 I2 Q. each; try vm; vm_compute in Q; discriminate Q. Qed.
Lemma spelled_c101 : one_spelling c101.
Proof. intros p p' I1 I2 Q. each; try vm; vm_compute in Q; discriminate Q. Qed.
Lemma same101 : same_values a101 c101.
Proof.
  split; intros p I1; each;
    first [exists (int101 1); split; [cbn; tauto|vm]|exists (int101 3); split; [cbn; tauto|vm]|exists half101; split; [cbn; tauto|vm]|exists quarters101; split; [cbn; tauto|vm]].
Qed.
Local Ltac known := apply known_text; [solve [auto]|discriminate|cbn; lia|repeat constructor; cbn; tauto| |cbn; repeat split];
  solve [repeat constructor; (left; reflexivity) || (right; vm)].
Example C101_ex : sequence (Some KTuple) [32%N] (map fst a101) = u "(1, \frac{1}{2}, 3)" /\ sequence (Some KTuple) [] (map fst b101) = u "(1,\frac{2}{4},3)" /\
  sequence None [32%N] (map fst c101) = u "3, \frac{2}{4}, 1" /\
  sequence_text (u "(1, \frac{1}{2}, 3)") (Some KTuple) (map fst a101) /\ sequence_text (u "(1,\frac{2}{4},3)") (Some KTuple) (map fst b101) /\ Forall demo_valued a101 /\ Forall demo_valued b101.
Proof.
  assert (sequence_text (sequence (Some KTuple) [32%N] (map fst a101)) (Some KTuple) (map fst a101) /\ Forall demo_valued a101) as [T1 F1] by known.
  assert (sequence_text (sequence (Some KTuple) [] (map fst b101)) (Some KTuple) (map fst b101) /\ Forall demo_valued b101) as [T2 F2] by known.
  split; [vm|]. split; [vm|]. split; [vm|]. split; [exact T1|]. split; [exact T2|]. split; [exact F1|exact F2].
Qed.
(* verdicts that follow: equal tuples, the same items in another order, the same bare *)
Example C101_ex2 {V' S} (IS : ISympy (globals ex * stream) V' S) cmp iter iter_ok lhs :
  let W := with_intervals IS cmp same iter iter_ok (whole 3 3) lhs in
  fst (is_equiv W 3 (Some (u "(1, \frac{1}{2}, 3)")) (Some (u "(1,\frac{2}{4},3)")) start93) = Ret true /\
  fst (is_equiv W 3 (Some (u "(1, \frac{1}{2}, 3)")) (Some (u "(3,\frac{2}{4},1)")) start93) = Ret false /\
  fst (is_equiv W 3 (Some (u "1, \frac{1}{2}, 3")) (Some (u "3,\frac{2}{4},1")) start93) = Ret true /\
  fst (is_equiv W 3 (Some (u "(1, \frac{1}{2}, 3)")) (Some (u "[1,\frac{2}{4},3]")) start93) = Ret false.
Proof.
  intro W. destruct C93_met as (M1 & M2 & M3 & M4 & M5).
  assert (sequence_text (sequence (Some KTuple) [32%N] (map fst a101)) (Some KTuple) (map fst a101) /\ Forall demo_valued a101) as [T1 F1] by known.
  assert (sequence_text (sequence (Some KTuple) [] (map fst b101)) (Some KTuple) (map fst b101) /\ Forall demo_valued b101) as [T2 F2] by known.
  assert (sequence_text (sequence (Some KTuple) [] (map fst c101)) (Some KTuple) (map fst c101) /\ Forall demo_valued c101) as [T3 F3] by known.
  assert (sequence_text (sequence None [32%N] (map fst a101)) None (map fst a101) /\ Forall demo_valued a101) as [T4 _] by known.
  assert (sequence_text (sequence None [] (map fst c101)) None (map fst c101) /\ Forall demo_valued c101) as [T5 _] by known.
  assert (sequence_text (sequence (Some KList) [] (map fst b101)) (Some KList) (map fst b101) /\ Forall demo_valued b101) as [T6 _] by known.
  split; [|split; [|split]].
  - destruct (C101_tuples DO 4 demo_emb DS near DemoArith (demo_den zero) (fun x => (zero x, false)) IS cmp same iter iter_ok lhs 3 3 1 _ _ KTuple KTuple a101 b101 start93
      M1 M2 M3 M4 M5 eq_refl T1 T2 F1 F2 eq_refl (le_n _) (le_n _)) as (b & Eb & Hb).
    refine (eq_trans Eb _). f_equal. apply Hb. split; [reflexivity|]. repeat constructor; left; vm.
  - destruct (C101_tuples DO 4 demo_emb DS near DemoArith (demo_den zero) (fun x => (zero x, false)) IS cmp same iter iter_ok lhs 3 3 1 _ _ KTuple KTuple a101 c101 start93
      M1 M2 M3 M4 M5 eq_refl T1 T3 F1 F3 eq_refl (le_n _) (le_n _)) as (b & Eb & Hb).
    refine (eq_trans Eb _). f_equal. destruct b; [exfalso|reflexivity]. destruct (proj1 Hb eq_refl) as [_ Fr]. inversion Fr as [|? ? ? ? C _]; subst.
    assert (Q : (1 == 3)%Q) by (apply (sep101 (int101 1) (int101 3)); [left; reflexivity|left; reflexivity|exact C]). discriminate Q.
  - destruct (C101_bare DO 4 demo_emb DS near DemoArith (demo_den zero) (fun x => (zero x, false)) IS cmp same iter iter_ok lhs 3 3 1 _ _ a101 c101 start93
      M1 M2 M3 M4 M5 eq_refl T4 T5 F1 F3 eq_refl) as (b & Eb & _ & Hb).
    + right. split; apply le_n.
    + exact sep101.
    + refine (eq_trans Eb _). f_equal. apply Hb.
      * exact spelled_a101.
      * exact spelled_c101.
      * exact same101.
  - refine (C101_mixed DO 4 demo_emb DS near DemoArith (demo_den zero) (fun x => (zero x, false)) IS cmp same iter iter_ok lhs 3 3 1 _ _ _ _ a101 b101 start93
      M1 M2 M3 M4 M5 eq_refl T1 T6 F1 F2 eq_refl (le_n _) (le_n _) _). discriminate.
Qed.
(** Finding: which spellings the repeated values have decides the verdict. *)
Theorem C101_spelling_refuted {V' S} (IS : ISympy (globals ex * stream) V' S) cmp lhs :
  exists s1 s2 s2' l1 l2 l2', let W := with_intervals IS cmp same (nodup str_eq_dec) (fun l => Permutation_refl _) (whole 3 3) lhs in
    sequence_text s1 None (map fst l1) /\ sequence_text s2 None (map fst l2) /\ sequence_text s2' None (map fst l2') /\
    Forall demo_valued l1 /\ Forall demo_valued l2 /\ Forall demo_valued l2' /\ map snd l2 = map snd l2' /\
    fst (is_equiv W 3 (Some s1) (Some s2) start93) = Ret true /\ fst (is_equiv W 3 (Some s1) (Some s2') start93) = Ret false.
Proof.
  exists (u "2,3,3"), (u "2,2,3"), (u "2,\frac{4}{2},3"), [int101 2; int101 3; int101 3], [int101 2; int101 2; int101 3], [int101 2; doubled101; int101 3]. intro W.
  assert (sequence_text (sequence None [] (map fst [int101 2; int101 3; int101 3])) None (map fst [int101 2; int101 3; int101 3]) /\ Forall demo_valued [int101 2; int101 3; int101 3]) as [T1 F1] by known.
  assert (sequence_text (sequence None [] (map fst [int101 2; int101 2; int101 3])) None (map fst [int101 2; int101 2; int101 3]) /\ Forall demo_valued [int101 2; int101 2; int101 3]) as [T2 F2] by known.
  assert (sequence_text (sequence None [] (map fst [int101 2; doubled101; int101 3])) None (map fst [int101 2; doubled101; int101 3]) /\ Forall demo_valued [int101 2; doubled101; int101 3]) as [T3 F3] by known.
  split; [exact T1|]. split; [exact T2|]. split; [exact T3|]. split; [exact F1|]. split; [exact F2|]. split; [exact F3|]. split; [reflexivity|]. split; vm.
Qed.
Print Assumptions C101_spelling_refuted.
