(** Proofs about LLM.v. *)
From Coq Require Import String List Arith NArith ZArith Bool Lia.
From Verif Require Import PyStr PyStrTheory Regex RegexTheory Normalize Monad MonadTheory Split SplitTheory Prompts LLM.
Import ListNotations.
Local Open Scope N_scope.

(** ** Extracting the type from a reply *)
(** The text after the first "Type:", without leading white space, up to the end of the line. *)
Definition type_line (text t : pystr) : Prop :=
  exists a w rest, text = a ++ u "Type:" ++ w ++ t ++ rest /\
    clean (u "Type:") a /\
    Forall (fun c => is_space c = true) w /\
    ~ In 10 t /\
    match t ++ rest with [] => True | c :: _ => is_space c = false end /\
    match rest with [] => True | c :: _ => c = 10 end.

Lemma hd_seq a b st st1 st2 : hd_error (matches a st) = Some st1 -> hd_error (matches b st1) = Some st2 ->
  hd_error (matches (RSeq a b) st) = Some st2.
Proof.
  intros H1 H2. cbn [matches]. destruct (matches a st) as [|x l]; [discriminate|]. injection H1 as ->. apply hd_flat_map, H2.
Qed.
Lemma matches_rstr t : forall pre s cs, matches (rstr t) (MSt pre (t ++ s) cs) = [MSt (rev t ++ pre) s cs].
Proof.
  induction t as [|c t IH]; intros pre s cs; [reflexivity|]. cbn [rstr app]. unfold lit.
  change (matches (RSeq (RChr (CLit c)) (rstr t)) ?st) with (flat_map (matches (rstr t)) (matches (RChr (CLit c)) st)).
  cbn [matches after before caps cls_in]. rewrite N.eqb_refl. cbn [flat_map]. rewrite IH, app_nil_r.
  cbn [rev]. rewrite <- app_assoc. reflexivity.
Qed.
Lemma rstr_none t pre s cs : starts_with t s = false -> matches (rstr t) (MSt pre s cs) = [].
Proof.
  intro H. destruct (matches (rstr t) (MSt pre s cs)) as [|x l] eqn:E; [reflexivity|].
  assert (Hin : In x (matches (rstr t) (MSt pre s cs))) by (rewrite E; left; reflexivity).
  apply in_rstr in Hin. destruct Hin as (s' & -> & _). rewrite starts_with_app in H. discriminate.
Qed.
Lemma hd_grp n a st st1 : hd_error (matches a st) = Some st1 ->
  hd_error (matches (RGrp n a) st) =
    Some (MSt (before st1) (after st1) ((n, firstn (length (after st) - length (after st1)) (after st)) :: caps st1)).
Proof. intro H. cbn [matches]. destruct (matches a st); [discriminate|]. injection H as ->. reflexivity. Qed.

Lemma search_skip t r s : forall a pre st, clean t a -> t <> [] ->
  match_at (RSeq (rstr t) r) (rev a ++ pre) (t ++ s) = Some st ->
  search_from (RSeq (rstr t) r) pre (a ++ t ++ s) = Some st.
Proof.
  induction a as [|c a IH]; intros pre st Hc Ht H.
  - cbn [app rev] in *. destruct t as [|d t]; [contradiction|]. cbn [app search_from]. cbn [app] in H. rewrite H. reflexivity.
  - cbn [app search_from]. assert (E : match_at (RSeq (rstr t) r) pre (c :: a ++ t ++ s) = None).
    { unfold match_at. cbn [matches]. rewrite rstr_none; [reflexivity|].
      destruct (starts_with t (c :: a ++ t ++ s)) eqn:E; [|reflexivity]. exfalso.
      apply starts_with_spec in E. destruct E as (x & E).
      rewrite app_comm_cons, app_assoc in E. apply app_eq_app in E. destruct E as (y & [[E1 E2]|[E1 E2]]).
      - specialize (Hc [] y E1). subst y. rewrite app_nil_r in E1. apply (f_equal (@length N)) in E1. rewrite app_length in E1. cbn in E1. lia.
      - apply (f_equal (@length N)) in E1. rewrite !app_length in E1. cbn in E1. lia. }
    rewrite E. apply IH; [|exact Ht|].
    + intros p q E'. apply (Hc (c :: p) q). cbn. rewrite E'. reflexivity.
    + cbn [rev] in H. rewrite <- app_assoc in H. exact H.
Qed.

Lemma extract_type_line text t : type_line text t -> extract_type text = Some t.
Proof.
  intros (a & w & rest & -> & Hc & Hw & Ht & Hn & Hr). unfold extract_type, re_search, type_re, rs.
  cbn [rseq]. erewrite search_skip with (st := MSt _ rest [(1%nat, t)]); [reflexivity|exact Hc|discriminate|].
  unfold match_at. eapply hd_seq; [rewrite matches_rstr; reflexivity|].
  eapply hd_seq.
  { apply (matches_star_run CSpace _ w (t ++ rest)); [apply forallb_forall; rewrite Forall_forall in Hw; exact Hw|].
    destruct (t ++ rest); [exact I|exact Hn]. }
  eapply hd_seq.
  { apply hd_grp. apply (matches_star_run CDot _ t rest).
    - apply forallb_forall. intros c Hin. cbn. apply negb_true_iff, N.eqb_neq. intros ->. contradiction.
    - destruct rest; [exact I|]. subst n. reflexivity. }
  cbn [after before caps matches hd_error]. do 2 f_equal.
  rewrite app_length. replace (length t + length rest - length rest)%nat with (length t) by lia.
  rewrite firstn_app, Nat.sub_diag, firstn_all, app_nil_r. reflexivity.
Qed.

Lemma first_occurrence p s : infix p s -> exists a b, s = a ++ p ++ b /\ clean p a.
Proof.
  intros (x & y & ->). induction x as [|c x (a & b & E & Hc)].
  - exists [], y. split; [reflexivity|]. intros p' q E. apply (f_equal (@length N)) in E.
    cbn in E. rewrite !app_length in E. destruct q; [reflexivity|cbn in E; lia].
  - cbn [app]. rewrite E. destruct (starts_with p (c :: a ++ p ++ b)) eqn:Es.
    + apply starts_with_spec in Es. destruct Es as (t & Es). exists [], t. split; [exact Es|].
      intros p' q E'. apply (f_equal (@length N)) in E'. cbn in E'. rewrite !app_length in E'. destruct q; [reflexivity|cbn in E'; lia].
    + exists (c :: a), b. split; [reflexivity|]. intros p' q E'. destruct p' as [|d p'].
      * exfalso. assert (starts_with p (c :: a ++ p ++ b) = true); [|congruence].
        apply starts_with_spec. exists (q ++ b). cbn in E'. rewrite app_assoc, app_comm_cons, E', <- app_assoc. reflexivity.
      * cbn in E'. injection E' as <- E'. eapply Hc, E'.
Qed.
Lemma span {A} (p : A -> bool) s : exists w r, s = w ++ r /\ Forall (fun c => p c = true) w /\ match r with [] => True | c :: _ => p c = false end.
Proof.
  induction s as [|c s (w & r & -> & Hw & Hr)]; [exists [], []; auto|].
  destruct (p c) eqn:E; [exists (c :: w), r; auto|]. exists [], (c :: w ++ r). auto.
Qed.
Lemma type_line_exists text : infix (u "Type:") text -> exists t, type_line text t.
Proof.
  intro H. destruct (first_occurrence _ _ H) as (a & b & -> & Hc).
  destruct (span is_space b) as (w & r & -> & Hw & Hr).
  destruct (span (fun c => negb (c =? 10)) r) as (t & rest & -> & Ht & Hrest).
  exists t, a, w, rest. split; [rewrite <- ?app_assoc; reflexivity|]. split; [exact Hc|]. split; [exact Hw|]. split; [|split; [exact Hr|]].
  - intro Hin. rewrite Forall_forall in Ht. specialize (Ht _ Hin). discriminate.
  - destruct rest; [exact I|]. apply negb_false_iff, N.eqb_eq in Hrest. exact Hrest.
Qed.
Lemma den_rstr t : forall w, den (rstr t) w -> w = t.
Proof.
  induction t as [|c t IH]; intros w H; cbn in H; [exact H|].
  destruct H as (w1 & w2 & -> & (d & -> & Hd) & H2). cbn in Hd. apply N.eqb_eq in Hd. subst d. rewrite (IH _ H2). reflexivity.
Qed.
Lemma extract_type_spec text t : extract_type text = Some t <-> type_line text t.
Proof.
  split; [|apply extract_type_line]. intro H.
  assert (Hi : infix (u "Type:") text).
  { unfold extract_type in H. destruct (re_search type_re text) as [st|] eqn:E; [|discriminate].
    apply re_search_sound in E. destruct E as (a & w & E & _ & Hd & _).
    unfold type_re in Hd. change (rseq (rs "Type:" :: ?l)) with (RSeq (rstr (u "Type:")) (rseq l)) in Hd.
    destruct Hd as (w1 & w2 & -> & Hd & _). apply den_rstr in Hd. subst w1. exists a, (w2 ++ after st). rewrite E, <- app_assoc. reflexivity. }
  destruct (type_line_exists text Hi) as (t' & Ht'). pose proof (extract_type_line _ _ Ht') as E. congruence.
Qed.
Lemma extract_type_none text : extract_type text = None <-> ~ infix (u "Type:") text.
Proof.
  split.
  - intros H Hi. destruct (type_line_exists text Hi) as (t' & Ht'). rewrite (extract_type_line _ _ Ht') in H. discriminate.
  - intro H. destruct (extract_type text) as [t|] eqn:E; [|reflexivity]. exfalso. apply H.
    apply extract_type_spec in E. destruct E as (a & w & rest & -> & _). exists a, (w ++ t ++ rest). reflexivity.
Qed.

(** ** The query loop *)
Section Query.
Variable St : Type.
Variable call : pystr -> M St (option pystr).
Variable p : pystr.
(** State after [k] calls, and the reply to call number [k]. *)
Fixpoint after_calls (k : nat) (st : St) : St :=
  match k with O => st | S k' => after_calls k' (snd (call p st)) end.
Definition reply (k : nat) (st : St) : res (option pystr) := fst (call p (after_calls k st)).
(** The reply is a text with a type in it. *)
Definition gives (r : res (option pystr)) (t : pystr) : Prop := exists text, r = Ret (Some text) /\ type_line text t.

Lemma gives_dec r : {t | gives r t} + {forall t, ~ gives r t}.
Proof.
  destruct r as [[text|]|e].
  - destruct (extract_type text) as [t|] eqn:E.
    + left. exists t, text. split; [reflexivity|]. apply extract_type_spec, E.
    + right. intros t (text' & [= <-] & H). apply extract_type_spec in H. congruence.
  - right. intros t (text' & H & _). discriminate.
  - right. intros t (text' & H & _). discriminate.
Qed.
Lemma query_step n st : query St call (S n) p st =
  match fst (call p st) with
  | Ret (Some text) => match extract_type text with Some t => (Ret (Some t), snd (call p st)) | None => query St call n p (snd (call p st)) end
  | _ => query St call n p (snd (call p st))
  end.
Proof.
  cbn [query]. unfold try_bare, bind. destruct (call p st) as [[[text|]|e] st1]; cbn; try reflexivity.
  destruct (extract_type text); reflexivity.
Qed.
Lemma query_found k : forall n st t, (k < n)%nat -> gives (reply k st) t ->
  (forall j, (j < k)%nat -> forall t', ~ gives (reply j st) t') ->
  query St call n p st = (Ret (Some t), after_calls (S k) st).
Proof.
  induction k as [|k IH]; intros n st t Hk Hg Hno; (destruct n as [|n]; [lia|]); rewrite query_step.
  - destruct Hg as (text & E & Ht). unfold reply in E. cbn [after_calls] in E. rewrite E.
    apply extract_type_spec in Ht. rewrite Ht. reflexivity.
  - specialize (IH n (snd (call p st)) t ltac:(lia) Hg).
    assert (H : query St call n p (snd (call p st)) = (Ret (Some t), after_calls (S (S k)) st)).
    { apply IH. intros j Hj. apply (Hno (S j)). lia. }
    pose proof (Hno 0%nat ltac:(lia)) as H0. unfold reply in H0. cbn [after_calls] in H0.
    destruct (fst (call p st)) as [[text|]|e]; try exact H.
    destruct (extract_type text) as [t'|] eqn:E; [|exact H]. exfalso. apply (H0 t'). exists text. split; [reflexivity|]. apply extract_type_spec, E.
Qed.
Lemma query_none n : forall st, (forall j, (j < n)%nat -> forall t, ~ gives (reply j st) t) ->
  query St call n p st = (Ret None, after_calls n st).
Proof.
  induction n as [|n IH]; intros st Hno; [reflexivity|]. rewrite query_step.
  assert (H : query St call n p (snd (call p st)) = (Ret None, after_calls (S n) st)).
  { apply IH. intros j Hj. apply (Hno (S j)). lia. }
  pose proof (Hno 0%nat ltac:(lia)) as H0. unfold reply in H0. cbn [after_calls] in H0.
  destruct (fst (call p st)) as [[text|]|e]; try exact H.
  destruct (extract_type text) as [t'|] eqn:E; [|exact H]. exfalso. apply (H0 t'). exists text. split; [reflexivity|]. apply extract_type_spec, E.
Qed.
End Query.

(** ** str.format *)
(** A text as it is written in a template: braces doubled. *)
Definition doubled (s : pystr) : pystr := flat_map (fun c => if (c =? 123) || (c =? 125) then [c; c] else [c]) s.
Lemma format_doubled env x : forall s, format_go env None (doubled x ++ s) =
  match format_go env None s with Ret r => Ret (x ++ r) | Raise e => Raise e end.
Proof.
  induction x as [|c x IH]; intro s; [cbn; destruct (format_go env None s); reflexivity|].
  cbn [doubled flat_map]. fold (doubled x). destruct ((c =? 123) || (c =? 125)) eqn:E.
  - cbn [app]. destruct (N.eqb_spec c 123) as [->|H1].
    + cbn [format_go]. change (123 =? 123) with true. cbn iota. rewrite IH. destruct (format_go env None s); reflexivity.
    + cbn in E. apply N.eqb_eq in E. subst c. cbn [format_go]. change (125 =? 123) with false. change (125 =? 125) with true. cbn iota. rewrite IH. destruct (format_go env None s); reflexivity.
  - apply orb_false_iff in E. destruct E as [E1 E2]. cbn [app format_go]. rewrite E1, E2, IH. destruct (format_go env None s); reflexivity.
Qed.
Lemma format_field env name v : forall acc s, ~ In 125 name -> lookup env (rev acc ++ name) = Some v ->
  format_go env (Some acc) (name ++ [125] ++ s) =
  match format_go env None s with Ret r => Ret (v ++ r) | Raise e => Raise e end.
Proof.
  induction name as [|c name IH]; intros acc s Hn Hl.
  - rewrite app_nil_r in Hl. cbn [app format_go]. rewrite N.eqb_refl, Hl. reflexivity.
  - cbn [app format_go]. destruct (N.eqb_spec c 125) as [->|Hc]; [exfalso; apply Hn; left; reflexivity|].
    apply IH; [intro; apply Hn; right; assumption|]. cbn [rev]. rewrite <- app_assoc. exact Hl.
Qed.
Lemma format_two q a p m s : py_format (doubled p ++ u "{question}" ++ doubled m ++ u "{ground_truth}" ++ doubled s)
    [(u "question", q); (u "ground_truth", a)] = Ret (p ++ q ++ m ++ a ++ s).
Proof.
  unfold py_format. rewrite format_doubled.
  change (u "{question}" ++ ?x) with (123 :: 113 :: (tl (u "question") ++ [125] ++ x)).
  cbn [format_go]. change (123 =? 123) with true. change (113 =? 123) with false. cbn iota.
  change (113 =? 125) with false. cbn iota.
  rewrite format_field with (v := q); [|cbn; intuition discriminate|reflexivity].
  rewrite format_doubled.
  change (u "{ground_truth}" ++ ?x) with (123 :: 103 :: (tl (u "ground_truth") ++ [125] ++ x)).
  cbn [format_go]. change (123 =? 123) with true. change (103 =? 123) with false. cbn iota.
  change (103 =? 125) with false. cbn iota.
  rewrite format_field with (v := a); [|cbn; intuition discriminate|reflexivity].
  rewrite <- (app_nil_r (doubled s)), format_doubled. cbn [format_go]. rewrite app_nil_r. reflexivity.
Qed.

(** Undoing [doubled] and locating the fields, by computation. *)
Fixpoint undouble (s : pystr) : pystr :=
  match s with
  | c :: ((d :: t) as s') => if ((c =? 123) || (c =? 125)) && (d =? c) then c :: undouble t else c :: undouble s'
  | _ => s
  end.
Definition cut_at (p s : pystr) : pystr * pystr :=
  match find_str p s with Some k => (firstn k s, skipn (k + length p) s) | None => (s, []) end.
Definition parts (t : pystr) : pystr * pystr * pystr :=
  let (a, r) := cut_at (u "{question}") t in
  let (b, c) := cut_at (u "{ground_truth}") r in
  (undouble a, undouble b, undouble c).
Definition reassemble (x : pystr * pystr * pystr) : pystr :=
  let '(a, b, c) := x in doubled a ++ u "{question}" ++ doubled b ++ u "{ground_truth}" ++ doubled c.
Lemma template_parts1 : reassemble (parts prompt_template) = prompt_template.
Proof. vm_compute. reflexivity. Qed.
Lemma template_parts2 : reassemble (parts prompt_template_2) = prompt_template_2.
Proof. vm_compute. reflexivity. Qed.

Definition template_of (prompt_type : Z) (t : pystr) : Prop :=
  (prompt_type = 1%Z /\ t = prompt_template) \/ (prompt_type = 2%Z /\ t = prompt_template_2).
Lemma make_prompt_spec ty t : template_of ty t ->
  exists p m s, t = doubled p ++ u "{question}" ++ doubled m ++ u "{ground_truth}" ++ doubled s /\
    forall q a, make_prompt ty q a = Ret (p ++ q ++ m ++ a ++ s).
Proof.
  assert (H : forall t', reassemble (parts t') = t' -> exists p m s, t' = doubled p ++ u "{question}" ++ doubled m ++ u "{ground_truth}" ++ doubled s /\
    forall q a, py_format t' [(u "question", q); (u "ground_truth", a)] = Ret (p ++ q ++ m ++ a ++ s)).
  { intros t' E. destruct (parts t') as [[p m] s]. unfold reassemble in E. exists p, m, s.
    split; [symmetry; exact E|]. intros q a. rewrite <- E. apply format_two. }
  intros [[-> ->]|[-> ->]].
  - destruct (H prompt_template template_parts1) as (p & m & s & E & Hf). exists p, m, s. split; [exact E|]. intros q a. exact (Hf q a).
  - destruct (H prompt_template_2 template_parts2) as (p & m & s & E & Hf). exists p, m, s. split; [exact E|]. intros q a. exact (Hf q a).
Qed.
Lemma make_prompt_other ty q a : ty <> 1%Z -> ty <> 2%Z -> make_prompt ty q a = Raise ValueError.
Proof.
  intros H1 H2. unfold make_prompt. destruct (Z.eqb_spec ty 1); [contradiction|]. destruct (Z.eqb_spec ty 2); [contradiction|]. reflexivity.
Qed.

(** ** Dollar signs *)
Definition dollar : N := 36.
(** Starts and ends with a dollar sign, none inside. *)
Definition dollared (core s : pystr) : Prop := s = dollar :: core ++ [dollar] /\ ~ In dollar core.
Definition without_dollars (s : pystr) : pystr := filter (fun c => negb (c =? dollar)) s.

Lemma count_cp_app c x y : count_cp c (x ++ y) = (count_cp c x + count_cp c y)%nat.
Proof. unfold count_cp. rewrite filter_app, app_length. reflexivity. Qed.
Lemma count_cp_zero c x : count_cp c x = O <-> ~ In c x.
Proof.
  induction x as [|d x IH]; [cbn; tauto|]. change (d :: x) with ([d] ++ x). rewrite count_cp_app, in_app_iff.
  unfold count_cp at 1. cbn [filter]. destruct (N.eqb_spec c d) as [<-|H]; cbn [length].
  - split; [discriminate|]. intro H; exfalso; apply H; left; left; reflexivity.
  - rewrite Nat.add_0_l, IH. cbn. intuition.
Qed.
Lemma wrapped_cond s : starts_with (u "$") s && ends_with (u "$") s && Nat.eqb (count_cp 36 s) 2 = true <-> exists core, dollared core s.
Proof.
  split.
  - intro H. apply andb_true_iff in H. destruct H as [H Hc]. apply andb_true_iff in H. destruct H as [H1 H2].
    apply Nat.eqb_eq in Hc. apply starts_with_spec in H1. destruct H1 as (t & ->).
    unfold ends_with in H2. apply starts_with_spec in H2. destruct H2 as (t' & H2).
    change (u "$") with [36] in *. cbn [rev app] in *.
    assert (Hs : 36 :: t = rev t' ++ [36]).
    { rewrite <- (rev_involutive (36 :: t)). cbn [rev]. rewrite H2. reflexivity. }
    destruct (rev t') as [|d core] eqn:Er.
    + cbn in Hs. injection Hs as ->. cbn in Hc. discriminate.
    + cbn in Hs. injection Hs as <- ->. exists core. split; [reflexivity|].
      change (36 :: core ++ [36]) with ([36] ++ core ++ [36]) in Hc. rewrite !count_cp_app in Hc. cbn in Hc.
      apply count_cp_zero. change dollar with 36. lia.
  - intros (core & -> & Hn). apply count_cp_zero in Hn. rewrite !andb_true_iff, Nat.eqb_eq. repeat split.
    + unfold ends_with. apply starts_with_spec. exists (rev (dollar :: core)). rewrite app_comm_cons, rev_app_distr. reflexivity.
    + change (dollar :: core ++ [dollar]) with ([dollar] ++ core ++ [dollar]). rewrite !count_cp_app. change dollar with 36 in *. rewrite Hn. reflexivity.
Qed.
Lemma replace_dollar s : replace (u "$") [] s = without_dollars s.
Proof. change (u "$") with [36]. apply replace_single_del. Qed.
Lemma wrap_answer_spec s : exists core, wrap_answer s = Ret (dollar :: core ++ [dollar]) /\ ~ In dollar core /\
  (forall c, dollared c s -> core = c) /\ ((forall c, ~ dollared c s) -> core = without_dollars s).
Proof.
  unfold wrap_answer. destruct (starts_with (u "$") s && ends_with (u "$") s && Nat.eqb (count_cp 36 s) 2) eqn:E.
  - apply wrapped_cond in E. destruct E as (core & -> & Hn). exists core. split; [reflexivity|]. split; [exact Hn|]. split.
    + intros c [Hc _]. injection Hc as Hc. apply app_inj_tail in Hc. destruct Hc as [-> _]. reflexivity.
    + intro H. exfalso. apply (H core). split; [reflexivity|exact Hn].
  - exists (without_dollars s). split; [|split; [|split]].
    + change (u "${ans}$") with (doubled [36] ++ 123 :: 97 :: (tl (u "ans") ++ [125] ++ doubled [36] ++ [])). unfold py_format.
      rewrite format_doubled. cbn [format_go]. change (123 =? 123) with true. change (97 =? 123) with false. cbn iota.
      change (97 =? 125) with false. cbn iota.
      rewrite format_field with (v := replace (u "$") [] s); [|cbn; intuition discriminate|reflexivity].
      rewrite format_doubled. cbn [format_go]. rewrite replace_dollar. reflexivity.
    + unfold without_dollars. intro H. apply filter_In in H. destruct H as [_ H]. discriminate.
    + intros c Hc. assert (starts_with (u "$") s && ends_with (u "$") s && Nat.eqb (count_cp 36 s) 2 = true) by (apply wrapped_cond; eauto). congruence.
    + reflexivity.
Qed.
Lemma wrap_idempotent s r : wrap_answer s = Ret r -> wrap_answer r = Ret r.
Proof.
  intro H. destruct (wrap_answer_spec s) as (core & E & Hn & _). rewrite E in H. injection H as <-.
  unfold wrap_answer at 1.
  assert (Hc : starts_with (u "$") (dollar :: core ++ [dollar]) && ends_with (u "$") (dollar :: core ++ [dollar]) && Nat.eqb (count_cp 36 (dollar :: core ++ [dollar])) 2 = true).
  { apply wrapped_cond. exists core. split; [reflexivity|exact Hn]. }
  rewrite Hc. reflexivity.
Qed.

(** ** get_llm_type *)
Section Get.
Variable St : Type.
Variable call : pystr -> M St (option pystr).
Lemma get_llm_type_prompt question answer ty t max_try : template_of ty t ->
  exists p m s core, t = doubled p ++ u "{question}" ++ doubled m ++ u "{ground_truth}" ++ doubled s /\
    ~ In dollar core /\ (forall c, dollared c answer -> core = c) /\ ((forall c, ~ dollared c answer) -> core = without_dollars answer) /\
    forall st, get_llm_type St call question answer ty max_try st =
      query St call (Z.to_nat max_try) (p ++ question ++ m ++ (dollar :: core ++ [dollar]) ++ s) st.
Proof.
  intro H. destruct (make_prompt_spec ty t H) as (p & m & s & E & Hf). destruct (wrap_answer_spec answer) as (core & Ew & Hn & H1 & H2).
  exists p, m, s, core. split; [exact E|]. split; [exact Hn|]. split; [exact H1|]. split; [exact H2|].
  intro st. unfold get_llm_type. rewrite Ew, Hf. reflexivity.
Qed.
End Get.

Lemma query_total St call p n : forall st, exists r k, (k <= n)%nat /\ query St call n p st = (Ret r, after_calls St call p k st).
Proof.
  induction n as [|n IH]; intro st; [exists None, O; auto|]. rewrite query_step.
  destruct (IH (snd (call p st))) as (r & k & Hk & E).
  assert (H : exists r' k', (k' <= S n)%nat /\ query St call n p (snd (call p st)) = (Ret r', after_calls St call p k' st)).
  { exists r, (S k). split; [lia|exact E]. }
  destruct (fst (call p st)) as [[text|]|e]; try exact H.
  destruct (extract_type text) as [t|]; [|exact H]. exists (Some t), 1%nat. split; [lia|reflexivity].
Qed.

(** A scripted model, for the examples: replies are taken from the state. *)
Definition scripted (p : pystr) : M (list (res (option pystr))) (option pystr) :=
  fun st => match st with [] => (Raise (BaseExc 0), []) | r :: st' => (r, st') end.
