(** Written matrices are in normal form up to spaces and capitals, and are cut into their entries. *)
From Coq Require Import String List NArith ZArith Bool Lia Arith.
From Verif Require Import UnicodeTables PyStr PyStrTheory NumTheory Regex RegexTheory Float64 Constants Normalize NormTheory NormNum Monad Split SplitTheory NormPct NormAlg
  L2SValue Arith ArithLex Automaton FloatText LatexForm Answer SeqAuto SeqForm MatAuto.
Import ListNotations.
Local Open Scope N_scope.

(** ** The automaton reads them *)
Lemma move_mturn q c p : In q places -> mem_cp text_alphabet c = true -> move q c = Some p -> mturn (MAt q) c = Some (MAt p).
Proof.
  assert (T : forallb (fun q => forallb (fun c => match move q c with Some p => match mturn (MAt q) c with Some p' => mspot_eqb p' (MAt p) | None => false end | None => true end)
    text_alphabet) places = true) by (vm_compute; reflexivity).
  intros Hq Hc H. rewrite forallb_forall in T. specialize (T q Hq). rewrite forallb_forall in T. specialize (T c (proj1 (mem_in _ _) Hc)). rewrite H in T.
  cbv beta in T. destruct (mturn (MAt q) c) as [p'|]; [|discriminate T]. apply mspot_eqb_ok in T. congruence.
Qed.
Lemma mat_alphabet_more c : mem_cp text_alphabet c = true -> mem_cp mat_alphabet c = true.
Proof. intro H. unfold mat_alphabet, mem_cp in *. cbn [existsb]. rewrite H. apply orb_true_r. Qed.
Lemma go_walk s : forall q q', In q places -> go q s = Some q' -> walk (MAt q) s = Some (MAt q').
Proof.
  unfold go, walk. induction s as [|c s IH]; intros q q' Hq H; [injection H as <-; reflexivity|]. cbn [run] in *.
  destruct (mem_cp text_alphabet c) eqn:Ec; [|discriminate]. rewrite (mat_alphabet_more c Ec).
  destruct (move q c) as [p|] eqn:Em; [|discriminate]. rewrite (move_mturn q c p Hq Ec Em). apply IH; [|exact H].
  exact (delta_states place place_eqb place_eqb_ok places text_alphabet move places_closed q c p Hq Ec Em).
Qed.
Lemma due_walk s q : s <> [] -> go Fresh s = Some q -> walk MDue s = Some (MAt q).
Proof.
  destruct s as [|c s]; [congruence|]. intros _ H. unfold go, walk in *. cbn [run] in *. destruct (mem_cp text_alphabet c) eqn:Ec; [|discriminate].
  rewrite (mat_alphabet_more c Ec). destruct (move Fresh c) as [p|] eqn:Em; [|discriminate].
  assert (mturn MDue c = Some (MAt p)) as ->.
  { cbn [mturn]. destruct (N.eqb_spec c 32) as [->|]; [vm_compute in Em; discriminate|]. change (operand all_letters c) with (move Fresh c). rewrite Em. reflexivity. }
  apply go_walk; [|exact H]. exact (delta_states place place_eqb place_eqb_ok places text_alphabet move places_closed Fresh c p fresh_place Ec Em).
Qed.
Definition ends_at (p : mspot) (s : pystr) : Prop := exists q, walk p s = Some (MAt q) /\ In q end_places.

Section Reading.
Variables sp gap : pystr.
Hypothesis Hsp : sp = [] \/ sp = [32].
Hypothesis Hgap : gap = [] \/ gap = [32].
(** No letter that begins a unit after a space *)
Definition entry (e : arith) : Prop := item e /\ (sp = [] \/ unit_first e = false).
Definition table (rows : list (list arith)) : Prop := rows <> [] /\ Forall (fun r => r <> [] /\ Forall entry r) rows.

Lemma entry_ends e : entry e -> ends_at MDue (sp ++ body gap e).
Proof.
  intros [[W P] U]. destruct (body_first gap e W) as (c & r & Eb & _). destruct Hsp as [E|E].
  - destruct (printable_finishes gap e Hgap W P) as (q & H & I). exists q. split; [|exact I]. rewrite E. apply due_walk; [rewrite Eb; discriminate|exact H].
  - assert (X : unit_first e = false) by (destruct U as [U|U]; [congruence|exact U]).
    assert (F : finishes Gap (body gap e)) by (apply run_body; auto; right; left; split; [left; reflexivity|exact X]).
    destruct F as (q & H & I). exists q. split; [|exact I]. rewrite E. change (walk (MAt Gap) (body gap e) = Some (MAt q)). apply go_walk; [|exact H].
    assert (T : has place place_eqb Gap places = true) by (vm_compute; reflexivity). exact (proj1 (has_in place place_eqb place_eqb_ok Gap places) T).
Qed.
Lemma sep_due mid q : In mid [[38]; u "\\"] -> In q end_places -> walk (MAt q) (sp ++ mid) = Some MDue.
Proof.
  assert (T : forallb (fun sp => forallb (fun mid => forallb (fun q => match walk (MAt q) (sp ++ mid) with Some p => mspot_eqb p MDue | None => false end) end_places) [[38]; u "\\"]) [[]; [32]] = true) by (vm_compute; reflexivity).
  intros Hm Hq. rewrite forallb_forall in T. specialize (T sp ltac:(destruct Hsp as [->| ->]; cbn; tauto)).
  rewrite forallb_forall in T. specialize (T mid Hm). rewrite forallb_forall in T. specialize (T q Hq).
  destruct (walk (MAt q) (sp ++ mid)) as [p|]; [|discriminate]. apply mspot_eqb_ok in T. congruence.
Qed.
Lemma join_ends mid l : In mid [[38]; u "\\"] -> l <> [] -> Forall (fun x => ends_at MDue (sp ++ x)) l -> ends_at MDue (sp ++ join (sp ++ mid ++ sp) l).
Proof.
  intros Hm. induction l as [|x l IH]; [congruence|]. intros _ F. inversion F as [|? ? Hx Fl]; subst. destruct l as [|y l]; [exact Hx|].
  specialize (IH ltac:(discriminate) Fl). destruct Hx as (q & H & I), IH as (q' & H' & I'). exists q'. split; [|exact I'].
  change (join (sp ++ mid ++ sp) (x :: y :: l)) with (x ++ (sp ++ mid ++ sp) ++ join (sp ++ mid ++ sp) (y :: l)).
  replace (sp ++ x ++ (sp ++ mid ++ sp) ++ join (sp ++ mid ++ sp) (y :: l)) with ((sp ++ x) ++ (sp ++ mid) ++ sp ++ join (sp ++ mid ++ sp) (y :: l)) by (rewrite <- !app_assoc; reflexivity).
  rewrite walk_app, H, walk_app, (sep_due mid q Hm I). exact H'.
Qed.
Lemma rows_ends rows : table rows -> ends_at MDue (sp ++ rows_text sp gap rows).
Proof.
  intros [Nr F]. apply join_ends; [right; left; reflexivity|destruct rows; [congruence|discriminate]|]. apply Forall_map. eapply Forall_impl; [|exact F].
  intros r [Nn Fr]. apply join_ends; [left; reflexivity|destruct r; [congruence|discriminate]|]. apply Forall_map. eapply Forall_impl; [|exact Fr]. exact entry_ends.
Qed.
Definition start : mspot := MWord (u "\begin{") 0.
Lemma begin_walk e : In e delimiters -> walk start (u "\begin{" ++ e ++ u "matrix}") = Some MDue.
Proof. intro H. cbn in H. repeat destruct H as [<-|H]; try contradiction; vm_compute; reflexivity. Qed.
Lemma end_walk e q : In e delimiters -> In q end_places -> walk (MAt q) (sp ++ u "\end{" ++ e ++ u "matrix}") = Some MOver.
Proof.
  assert (T : forallb (fun sp => forallb (fun e => forallb (fun q => match walk (MAt q) (sp ++ u "\end{" ++ e ++ u "matrix}") with Some p => mspot_eqb p MOver | None => false end) end_places) delimiters) [[]; [32]] = true) by (vm_compute; reflexivity).
  intros He Hq. rewrite forallb_forall in T. specialize (T sp ltac:(destruct Hsp as [->| ->]; cbn; tauto)).
  rewrite forallb_forall in T. specialize (T e He). rewrite forallb_forall in T. specialize (T q Hq).
  destruct (walk (MAt q) (sp ++ u "\end{" ++ e ++ u "matrix}")) as [p|]; [|discriminate]. apply mspot_eqb_ok in T. congruence.
Qed.
Lemma matrix_walk e1 e2 rows : In e1 delimiters -> In e2 delimiters -> table rows -> walk start (matrix_text e1 e2 sp gap rows) = Some MOver.
Proof.
  intros H1 H2 T. destruct (rows_ends rows T) as (q & H & I). unfold matrix_text, matrix_env.
  replace (u "\begin{" ++ e1 ++ u "matrix}" ++ (sp ++ rows_text sp gap rows ++ sp) ++ u "\end{" ++ e2 ++ u "matrix}")
    with ((u "\begin{" ++ e1 ++ u "matrix}") ++ (sp ++ rows_text sp gap rows) ++ sp ++ u "\end{" ++ e2 ++ u "matrix}") by (rewrite <- !app_assoc; reflexivity).
  rewrite walk_app, (begin_walk e1 H1), walk_app, H. apply end_walk; assumption.
Qed.
End Reading.

Lemma start_spot : In start mspots.
Proof. assert (T : has mspot mspot_eqb start mspots = true) by (vm_compute; reflexivity). exact (proj1 (has_in mspot mspot_eqb mspot_eqb_ok start mspots) T). Qed.
Lemma matrix_readable sp gap e1 e2 rows : sp = [] \/ sp = [32] -> gap = [] \/ gap = [32] -> In e1 delimiters -> In e2 delimiters -> table sp rows ->
  readable mspot mspots mat_alphabet mturn (matrix_text e1 e2 sp gap rows).
Proof. intros. exists start, MOver. split; [exact start_spot|]. apply matrix_walk; assumption. Qed.

(** ** Normal form *)
Lemma matrix_env_contains e1 e2 b : contains (u "\begin") (matrix_env e1 e2 b) = true /\ contains (u "matrix") (matrix_env e1 e2 b) = true.
Proof.
  split; apply contains_spec; unfold matrix_env.
  - exists [], (u "{" ++ e1 ++ u "matrix}" ++ b ++ u "\end{" ++ e2 ++ u "matrix}"). reflexivity.
  - exists (u "\begin{" ++ e1), (u "}" ++ b ++ u "\end{" ++ e2 ++ u "matrix}"). rewrite <- !app_assoc. reflexivity.
Qed.
Lemma matrix_env_strip e1 e2 b : strip (matrix_env e1 e2 b) = matrix_env e1 e2 b.
Proof.
  apply strip_by_id.
  - vm_compute. reflexivity.
  - unfold matrix_env. rewrite !app_assoc, rev_app_distr. vm_compute. reflexivity.
Qed.
Lemma slash_bad : bad_cp 92.
Proof. apply bad_b_spec. vm_compute. reflexivity. Qed.
Lemma slash_in e1 e2 b : In 92 (matrix_env e1 e2 b).
Proof. left. reflexivity. Qed.
Lemma matrix_no_comma sp gap e1 e2 rows : sp = [] \/ sp = [32] -> gap = [] \/ gap = [32] -> In e1 delimiters -> In e2 delimiters -> table sp rows ->
  ~ In 44 (matrix_text e1 e2 sp gap rows).
Proof.
  intros H1 H2 H3 H4 H5 H. pose proof (readable_alpha _ _ _ _ _ 44 (matrix_readable sp gap e1 e2 rows H1 H2 H3 H4 H5) H) as X. apply mem_in in X. vm_compute in X. discriminate.
Qed.
Notation D := (filter (fun x => negb (x =? 32))).
Lemma despace_join a b l : D a = b -> D (join a l) = join b (map D l).
Proof.
  intros <-. induction l as [|x l IH]; [reflexivity|]. destruct l as [|y l]; [reflexivity|].
  change (join a (x :: y :: l)) with (x ++ a ++ join a (y :: l)). rewrite !filter_app, IH. reflexivity.
Qed.
Lemma lower_join a l : lower a = a -> lower (join a l) = join a (map lower l).
Proof.
  intro E. induction l as [|x l IH]; [reflexivity|]. destruct l as [|y l]; [reflexivity|].
  change (join a (x :: y :: l)) with (x ++ a ++ join a (y :: l)). rewrite !lower_app, IH, E. reflexivity.
Qed.
Lemma despace_rows sp gap rows : sp = [] \/ sp = [32] -> gap = [] \/ gap = [32] -> Forall (Forall wf) rows -> D (rows_text sp gap rows) = rows_text [] [] rows.
Proof.
  intros Hs Hg F. assert (DB : forall e, wf e -> D (body gap e) = body [] e).
  { intros e W. rewrite <- replace_single_del. destruct Hg as [-> | ->]; [apply tight_tight, W|apply tight_latex, W]. }
  unfold rows_text. rewrite (despace_join _ (u "\\")) by (destruct Hs as [-> | ->]; reflexivity). f_equal.
  rewrite map_map. apply map_ext_in. intros r Hr. rewrite Forall_forall in F. specialize (F r Hr). unfold row_text.
  rewrite (despace_join _ [38]) by (destruct Hs as [-> | ->]; reflexivity). f_equal. rewrite map_map. apply map_ext_in. intros e He. rewrite Forall_forall in F. apply DB, F, He.
Qed.
Lemma lower_rows rows : Forall (Forall wf) rows -> lower (rows_text [] [] rows) = rows_text [] [] (map (map low) rows).
Proof.
  intro F. unfold rows_text. rewrite lower_join by reflexivity. f_equal. rewrite !map_map. apply map_ext_in. intros r Hr. rewrite Forall_forall in F. specialize (F r Hr).
  unfold row_text. rewrite lower_join by reflexivity. f_equal. rewrite !map_map. apply map_ext_in. intros e He. rewrite Forall_forall in F. apply lower_body; [left; reflexivity|apply F, He].
Qed.
Lemma env_lower e : In e delimiters -> D e = e /\ In (lower e) delimiters.
Proof. intro H. cbn in H. repeat destruct H as [<-|H]; try contradiction; split; vm_compute; auto 10. Qed.
Lemma table_wf sp rows : table sp rows -> Forall (Forall wf) rows.
Proof. intros [_ F]. eapply Forall_impl; [|exact F]. intros r [_ Fr]. eapply Forall_impl; [|exact Fr]. intros e [[W _] _]. exact W. Qed.
(** The small letters are written arithmetic too: no D, which would become a differential. *)
Definition low_table (rows : list (list arith)) : Prop := Forall (Forall (fun e => wf (low e))) rows.
Lemma table_low sp rows : table sp rows -> low_table rows -> table [] (map (map low) rows).
Proof.
  intros [Nr F] L. split; [destruct rows; [congruence|discriminate]|]. apply Forall_map, Forall_forall. intros r Hr. unfold low_table in L. rewrite Forall_forall in F, L.
  destruct (F r Hr) as [Nn Fr]. specialize (L r Hr). split; [destruct r; [congruence|discriminate]|]. apply Forall_map, Forall_forall. intros e He. rewrite Forall_forall in Fr, L.
  destruct (Fr e He) as [[_ P] _]. split; [|left; reflexivity]. split; [apply L, He|]. apply plain_printable, printable_low, P.
Qed.
Theorem matrix_normal ints e1 e2 sp gap rows : sp = [] \/ sp = [32] -> gap = [] \/ gap = [32] -> In e1 delimiters -> In e2 delimiters -> table sp rows -> low_table rows ->
  string_normalize ints (matrix_text e1 e2 sp gap rows) = NStr (matrix_text (lower e1) (lower e2) [] [] (map (map low) rows)) /\
  strip (matrix_text e1 e2 sp gap rows) = matrix_text e1 e2 sp gap rows.
Proof.
  intros Hs Hg H1 H2 T L. split; [|apply matrix_env_strip].
  pose proof (matrix_readable sp gap e1 e2 rows Hs Hg H1 H2 T) as R. pose proof (table_wf sp rows T) as Fw.
  assert (E : lower (replace [32] [] (matrix_text e1 e2 sp gap rows)) = matrix_text (lower e1) (lower e2) [] [] (map (map low) rows)).
  { rewrite replace_single_del. unfold matrix_text, matrix_env. rewrite !filter_app, despace_rows by assumption.
    rewrite (proj1 (env_lower e1 H1)), (proj1 (env_lower e2 H2)). rewrite !lower_app, lower_rows by assumption. destruct Hs as [-> | ->]; reflexivity. }
  rewrite <- E. apply (alone_normalizes mspot mspot_eqb mspot_eqb_ok mspots mat_alphabet mturn mspots_closed mat_left_alone).
  - exact R.
  - unfold str_matrix_normalize. rewrite (dead_contains mspot mspot_eqb mspot_eqb_ok mspots mat_alphabet mturn mspots_closed (u "{cases}") _ mat_no_cases R).
    rewrite (dead_contains mspot mspot_eqb mspot_eqb_ok mspots mat_alphabet mturn mspots_closed (u "{array}") _ mat_no_array R).
    rewrite (dead_contains mspot mspot_eqb mspot_eqb_ok mspots mat_alphabet mturn mspots_closed (u "\\begin") _ mat_no_begin R).
    unfold matrix_text. destruct (matrix_env_contains e1 e2 (sp ++ rows_text sp gap rows ++ sp)) as [-> ->]. reflexivity.
  - apply matrix_env_strip.
  - reflexivity.
  - apply (bad_float 92 _ slash_bad), slash_in.
  - rewrite E. unfold str_is_int. rewrite strip_commas_none.
    + rewrite (bad_float 92 _ slash_bad); [reflexivity|apply slash_in].
    + apply (matrix_no_comma [] []); auto; [apply env_lower, H1|apply env_lower, H2|apply (table_low sp); assumption].
Qed.

(** ** Cutting into entries *)
Lemma entry_cell e : item e -> plain_cell (tight e).
Proof.
  intros [W P]. pose proof (printable_finishes [] e (or_introl eq_refl) W P) as F. pose proof (finishes_readable _ F) as R. split; [|split].
  - intro H. pose proof (readable_alpha _ _ _ _ _ 38 R H) as X. apply mem_in in X. vm_compute in X. discriminate.
  - intro H. assert (X : dead place place_eqb places text_alphabet move (rs "\\") = true) by (vm_compute; reflexivity).
    pose proof (dead_contains place place_eqb place_eqb_ok places text_alphabet move places_closed (u "\\") _ X R) as C.
    destruct H as (a & b & E). assert (contains (u "\\") (tight e) = true) as C' by (apply contains_spec; exists a, b; exact E). unfold tight in C'. congruence.
  - intros y E. destruct F as (q & H & I). unfold tight in E. rewrite E, go_app in H. destruct (go Fresh y) as [p|] eqn:Ey; [|discriminate].
    assert (T : forallb (fun p => match go p [92] with Some q => negb (has place place_eqb q end_places) | None => true end) places = true) by (vm_compute; reflexivity).
    rewrite forallb_forall in T. specialize (T p (run_states place place_eqb place_eqb_ok places text_alphabet move places_closed _ _ _ fresh_place Ey)). rewrite H in T.
    rewrite (end_has q I) in T. discriminate.
Qed.
Lemma delimiter_prefix e : In e delimiters -> env_prefix e.
Proof. intro H. cbn in H. repeat destruct H as [<-|H]; try contradiction; [left; reflexivity|right; eexists; split; [reflexivity|lia]..]. Qed.
Theorem matrix_split e1 e2 rows n : (0 < n)%nat -> In e1 delimiters -> In e2 delimiters -> rows <> [] -> Forall (fun r => length r = n) rows -> Forall (Forall item) rows ->
  split_matrix (matrix_text e1 e2 [] [] rows) = Ret (table_result (map (map tight) rows)).
Proof.
  intros Hn H1 H2 Nr L F.
  replace (matrix_text e1 e2 [] [] rows) with (matrix_env e1 e2 (table_body (map (map tight) rows))).
  - apply (split_matrix_cells e1 e2 _ n); auto using delimiter_prefix.
    + destruct rows; [congruence|discriminate].
    + apply Forall_map. eapply Forall_impl; [|exact L]. intros r E. rewrite map_length. exact E.
    + apply Forall_map. eapply Forall_impl; [|exact F]. intros r Fr. apply Forall_map. eapply Forall_impl; [|exact Fr]. exact entry_cell.
  - unfold matrix_text. cbn [app]. rewrite app_nil_r. unfold table_body, rows_text, row_text. rewrite map_map. reflexivity.
Qed.
Lemma balance_join a l : balance a = 0%Z -> Forall (fun x => balance x = 0%Z) l -> balance (join a l) = 0%Z.
Proof.
  intros Ha F. induction F as [|x l Hx F IH]; [reflexivity|]. destruct l as [|y l]; [exact Hx|].
  change (join a (x :: y :: l)) with (x ++ a ++ join a (y :: l)). rewrite !balance_app, Ha, Hx, IH. reflexivity.
Qed.
Lemma matrix_balance e1 e2 rows : In e1 delimiters -> In e2 delimiters -> Forall (Forall wf) rows -> balance (matrix_text e1 e2 [] [] rows) = 0%Z.
Proof.
  intros H1 H2 F. unfold matrix_text, matrix_env. cbn [app]. rewrite app_nil_r. rewrite !balance_app.
  assert (B : forall e, In e delimiters -> balance e = 0%Z) by (intros e H; cbn in H; repeat destruct H as [<-|H]; try contradiction; reflexivity).
  rewrite (B e1 H1), (B e2 H2).
  assert (balance (rows_text [] [] rows) = 0%Z) as ->; [|reflexivity].
  apply balance_join; [reflexivity|]. apply Forall_map. eapply Forall_impl; [|exact F]. intros r Fr. apply balance_join; [reflexivity|]. apply Forall_map.
  eapply Forall_impl; [|exact Fr]. intros e W. apply body_balance; auto.
Qed.
