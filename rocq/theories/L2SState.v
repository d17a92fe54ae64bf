(** How the result of latex2sympy depends on the module's globals, hence on earlier calls. *)
From Coq Require Import String List NArith ZArith Bool Lia.
From Verif Require Import PyStr Regex Normalize Monad L2S MonadTheory L2STheory.
Import ListNotations.
Local Open Scope mon_scope.

(** How two runs are compared.  [Exact]: from the same flags diff_op/partial_op; [Fresh]: the first run starts with the flags
    unassigned or the same; [Both]: from any flags. *)
Inductive mode := Exact | Fresh | Both.

Section S.
Context {V : Type}.
Variable O : LSympy V.
Notation G := (globals V).
Notation val := (lv V).
Variable md : mode.

Definition fl (a b : option bool) : Prop :=
  match md with Exact => a = b | Fresh => a = None \/ a = b | Both => True end.
Record rel0 (st st' : G) : Prop := {
  r_real : g_real st = g_real st';
  r_var : g_var st = g_var st';
  r_variances : g_variances st = g_variances st';
  r_diff : fl (g_diff st) (g_diff st');
  r_partial : fl (g_partial st) (g_partial st')
}.
Definition rel (st st' : G) : Prop := rel0 st st' /\ g_values st = g_values st'.
(** What is known of the two outcomes *)
Definition outcome {A} (x y : res A * G) : Prop :=
  match fst x, fst y with
  | Ret v, Ret v' => v = v' /\ rel (snd x) (snd y)
  | Raise e, Raise e' => md = Exact -> e = e' /\ rel (snd x) (snd y)
  | Ret _, Raise _ => md = Both
  | Raise _, Ret _ => md <> Exact
  end.
Definition resp A (m : M G A) : Prop := forall st st', rel st st' -> outcome (m st) (m st').

Lemma fl_refl a : fl a a.
Proof. unfold fl. destruct md; auto. Qed.
Lemma resp_bind A B (m : M G A) (f : A -> M G B) : resp A m -> (forall a, resp B (f a)) -> resp B (bind m f).
Proof.
  intros Hm Hf st st' R. specialize (Hm st st' R). unfold bind, outcome in *.
  destruct (m st) as [[v|e] s], (m st') as [[v'|e'] s']; cbn [fst snd] in *.
  - destruct Hm as [<- R']. apply (Hf v s s' R').
  - destruct (f v s) as [[w|e] s1]; cbn; [exact Hm|intro X; congruence].
  - destruct (f v' s') as [[w|e1] s1]; cbn; [exact Hm|intro; contradiction].
  - exact Hm.
Qed.
Lemma outcome_ret A (v : A) s s' : rel s s' -> outcome (Ret v, s) (Ret v, s').
Proof. intro R; cbn; auto. Qed.
Lemma outcome_raise A e s s' : rel s s' -> @outcome A (Raise e, s) (Raise e, s').
Proof. intro R; cbn; auto. Qed.
Lemma resp_lift A (r : res A) : resp A (lift_res r).
Proof. intros st st' R. unfold lift_res. destruct r; [apply outcome_ret, R|apply outcome_raise, R]. Qed.
Lemma resp_gets A (f : G -> A) : (forall st st', rel st st' -> f st = f st') -> resp A (gets f).
Proof. intros H st st' R. unfold gets. rewrite (H st st' R). apply outcome_ret, R. Qed.

Lemma resp_check : resp unit check_derivative.
Proof.
  intros st st' R. pose proof R as [[_ _ _ Hd Hp] _]. unfold check_derivative, gets, bind, read_flag, ret, raise, outcome.
  unfold fl in Hd, Hp.
  destruct (g_diff st) as [[]|] eqn:D1, (g_diff st') as [[]|] eqn:D2; cbn; auto;
  destruct (g_partial st) as [[]|] eqn:P1; cbn; auto;
  destruct (g_partial st') as [[]|] eqn:P2; cbn; auto;
  destruct md; try (intuition congruence); intros; intuition congruence.
Qed.
Lemma resp_flags d p : resp unit (set_flags (Some d) (Some p)).
Proof.
  intros st st' [[] Hv]. unfold set_flags. apply outcome_ret. split; [|exact Hv].
  split; cbn; try assumption; apply fl_refl.
Qed.
Lemma resp_add_variance k v : resp unit (add_variance k v).
Proof. intros st st' [[] Hv]. apply outcome_ret. split; [|exact Hv]. split; cbn; try assumption. congruence. Qed.
Lemma resp_add_var k v : resp unit (add_var k v).
Proof. intros st st' [[] Hv]. apply outcome_ret. split; [|exact Hv]. split; cbn; try assumption. congruence. Qed.
Lemma resp_declare k v : resp unit (declare O k v).
Proof. apply resp_bind; [apply resp_add_variance|intros _; apply resp_add_var]. Qed.
(** Computations that neither read nor change the state *)
Definition still {A} (m : M G A) : Prop := exists r, forall st, m st = (r, st).
Lemma still_lift {A} (r : res A) : still (lift_res r).
Proof. exists r. reflexivity. Qed.
Lemma still_ret {A} (a : A) : still (@ret G A a).
Proof. exists (Ret a). reflexivity. Qed.
Lemma still_bind {A B} (m : M G A) (f : A -> M G B) : still m -> (forall a, still (f a)) -> still (bind m f).
Proof.
  intros [r Hr] Hf. destruct r as [a|e].
  - destruct (Hf a) as [r Hr']. exists r. intro st. unfold bind. rewrite Hr. apply Hr'.
  - exists (Raise e). intro st. unfold bind. rewrite Hr. reflexivity.
Qed.
Lemma resp_still A (m : M G A) : still m -> resp A m.
Proof. intros [r Hr] st st' R. rewrite !Hr. apply (resp_lift A r st st' R). Qed.
Lemma still_try {A} (m h : M G A) : still m -> still h -> still (try_bare m h).
Proof.
  intros [r Hr] [r' Hr']. destruct r as [a|e].
  - exists (Ret a). intro st. unfold try_bare. rewrite Hr. reflexivity.
  - exists r'. intro st. unfold try_bare. rewrite Hr. apply Hr'.
Qed.
Lemma resp_symbol name : resp _ (make_symbol O name).
Proof.
  unfold make_symbol. apply resp_bind; [apply resp_gets; intros ? ? [[] ?]; assumption|intro real].
  apply resp_bind; [apply resp_gets; intros ? ? [[] ?]; assumption|intro decl].
  destruct (lookup_s decl name); [|apply resp_still, still_ret].
  apply resp_bind.
  { apply resp_still, still_try; [|apply still_ret]. apply still_bind; [apply still_lift|intro].
    apply still_bind; [apply still_lift|intro; apply still_ret]. }
  intros [m|]; [|apply resp_still, still_ret].
  apply resp_bind; [apply resp_gets; intros ? ? [[] ?]; assumption|intro known].
  destruct (lookup_v O known _); [|apply resp_still, still_ret].
  apply resp_bind; [apply resp_add_variance|intro; apply resp_still, still_ret].
Qed.
Lemma resp_closed : closed O resp.
Proof.
  split.
  - intros; apply resp_still, still_ret.
  - intros A e. apply (resp_lift A (Raise e)).
  - apply resp_lift.
  - apply resp_bind.
  - intros. apply resp_still, still_try; [apply still_lift|apply still_ret].
  - apply resp_gets. intros ? ? [[] ?]; assumption.
  - apply resp_gets. intros ? ? [[] ?]; assumption.
  - apply resp_gets. intros ? ? [[] ?]; assumption.
  - apply resp_check.
  - apply resp_flags.
  - apply resp_symbol.
Qed.
(** The beginning of a call forgets the values given to earlier calls. *)
Lemma head_rel s vs st st' : rel0 st st' ->
  exists s1 s1', head s vs st = (Ret tt, s1) /\ head s vs st' = (Ret tt, s1') /\ rel s1 s1' /\ g_values s1 = vs.
Proof.
  intros []. eexists _, _. split; [reflexivity|]. split; [reflexivity|]. split; [|reflexivity].
  split; [|reflexivity]. split; cbn; assumption.
Qed.
Lemma resp_head s vs : resp unit (head s vs).
Proof.
  intros st st' [R0 _]. destruct (head_rel s vs st st' R0) as (s1 & s1' & -> & -> & R & _). apply outcome_ret, R.
Qed.
Lemma resp_ext A (m m' : M G A) : (forall st, m st = m' st) -> resp A m -> resp A m'.
Proof. intros E H st st' R. rewrite <- !E. apply H, R. Qed.
Theorem latex2sympy_outcome n s vs st st' : rel0 st st' -> outcome (latex2sympy O n s vs st) (latex2sympy O n s vs st') \/ n = 0.
Proof.
  intro R0. destruct n as [|n]; [right; reflexivity|left]. rewrite !latex2sympy_head. unfold bind.
  destruct (head_rel s vs st st' R0) as (s1 & s1' & -> & -> & R & _).
  apply (rest_closed O resp resp_closed resp_declare n s); [|exact R].
  apply (latex2sympy_closed O resp resp_closed resp_declare resp_head resp_ext n).
Qed.
End S.

Section History.
Context {V : Type}.
Variable O : LSympy V.
Notation G := (globals V).
Notation val := (lv V).

(** The module's state after a sequence of calls, whether they return or raise *)
Record a_call := { c_fuel : nat; c_text : pystr; c_values : list (pystr * pv V) }.
Definition after (h : list a_call) (st : G) : G :=
  fold_left (fun st c => snd (latex2sympy O (c_fuel c) (c_text c) (c_values c) st)) h st.

(** Nothing is recorded about a matrix unless a matrix was declared *)
Definition sane (r : option bool) (st : G) : Prop := g_real st = r /\ (g_var st = [] -> g_variances st = []).
Definition keeps r A (m : M G A) : Prop := forall st, sane r st -> sane r (snd (m st)).
Lemma keeps_bind r A B (m : M G A) (f : A -> M G B) : keeps r A m -> (forall a, keeps r B (f a)) -> keeps r B (bind m f).
Proof.
  intros Hm Hf st S. specialize (Hm st S). unfold bind. destruct (m st) as [[a|e] s]; [apply (Hf a), Hm|exact Hm].
Qed.
Lemma keeps_still r A (m : M G A) : still m -> keeps r A m.
Proof. intros [x Hx] st S. rewrite Hx. exact S. Qed.
Lemma keeps_gets r A (f : G -> A) : keeps r A (gets f).
Proof. intros st S. exact S. Qed.
Lemma keeps_symbol r name : keeps r _ (make_symbol O name).
Proof.
  intros st S. unfold make_symbol, gets, bind. destruct (lookup_s (g_var st) name) as [rh|] eqn:L; [|exact S].
  assert (N : g_var st <> []) by (intro E; rewrite E in L; discriminate).
  unfold try_bare, lift_res.
  destruct (o_shape V O rh) as [sh|]; [|exact S]. cbn.
  destruct (o_matrix_symbol V O _ _ _) as [m|]; [|exact S]. cbn.
  destruct (lookup_v O (g_variances st) _); [|exact S].
  split; [exact (proj1 S)|]. cbn. intro E. contradiction.
Qed.
Lemma keeps_closed r : closed O (keeps r).
Proof.
  split.
  - intros; apply keeps_still, still_ret.
  - intros A e. apply keeps_still. exists (Raise e). reflexivity.
  - intros; apply keeps_still, still_lift.
  - apply keeps_bind.
  - intros. apply keeps_still, still_try; [apply still_lift|apply still_ret].
  - apply keeps_gets.
  - apply keeps_gets.
  - apply keeps_gets.
  - unfold check_derivative. apply keeps_bind.
    + apply keeps_bind; [apply keeps_gets|intros [b|]]; apply keeps_still; eexists; reflexivity.
    + intros []; cbn; [apply keeps_still; eexists; reflexivity|]. apply keeps_bind.
      * apply keeps_bind; [apply keeps_gets|intros [b|]]; apply keeps_still; eexists; reflexivity.
      * intros []; apply keeps_still; eexists; reflexivity.
  - intros d p st S. exact S.
  - apply keeps_symbol.
Qed.
Lemma keeps_declare r k v : keeps r unit (declare O k v).
Proof. intros st S. split; [exact (proj1 S)|]. cbn. discriminate. Qed.
Lemma sane_call r n s vs st : sane r st -> sane r (snd (latex2sympy O n s vs st)).
Proof.
  apply (latex2sympy_closed O (keeps r) (keeps_closed r) (keeps_declare r)).
  - intros s' vs' st' S. exact S.
  - intros A m m' E H st' S. rewrite <- E. apply H, S.
Qed.
Lemma sane_after r h st : sane r st -> sane r (after h st).
Proof.
  revert st. induction h as [|c h IH]; intros st S; [exact S|]. cbn [after fold_left]. apply IH, sane_call, S.
Qed.

(** The values used are those of the call, whatever was passed before *)
Theorem values_of_the_call n s vs st vs' :
  fst (latex2sympy O n s vs {| g_real := g_real st; g_frac := g_frac st; g_variances := g_variances st; g_var := g_var st;
                               g_values := vs'; g_diff := g_diff st; g_partial := g_partial st |}) =
  fst (latex2sympy O n s vs st).
Proof.
  set (st' := {| g_real := _ |}).
  assert (R : rel0 Exact st' st) by (split; cbn; reflexivity).
  destruct (latex2sympy_outcome O Exact n s vs st' st R) as [H| ->]; [|reflexivity].
  unfold outcome in H. destruct (latex2sympy O n s vs st') as [[v|e] s1], (latex2sympy O n s vs st) as [[v'|e'] s2]; cbn in *.
  - destruct H as [<- _]. reflexivity.
  - discriminate.
  - contradiction.
  - destruct H as [<- _]; reflexivity.
Qed.
(** The fraction style recorded before does not matter either *)
Theorem same_globals n s vs st st' :
  g_real st = g_real st' -> g_variances st = g_variances st' -> g_var st = g_var st' ->
  g_diff st = g_diff st' -> g_partial st = g_partial st' ->
  fst (latex2sympy O n s vs st) = fst (latex2sympy O n s vs st').
Proof.
  intros H1 H2 H3 H4 H5.
  assert (R : rel0 Exact st st') by (split; assumption).
  destruct (latex2sympy_outcome O Exact n s vs st st' R) as [H| ->]; [|reflexivity].
  unfold outcome in H. destruct (latex2sympy O n s vs st) as [[v|e] s1], (latex2sympy O n s vs st') as [[v'|e'] s2]; cbn in *.
  - destruct H as [<- _]. reflexivity.
  - discriminate.
  - contradiction.
  - destruct H as [<- _]; reflexivity.
Qed.

(** Two calls after any two histories with the same declarations, when both return, return the same *)
Theorem declarations_only h h' st0 n s vs v v' :
  g_var st0 = [] -> g_variances st0 = [] ->
  g_var (after h st0) = g_var (after h' st0) -> g_variances (after h st0) = g_variances (after h' st0) ->
  fst (latex2sympy O n s vs (after h st0)) = Ret v -> fst (latex2sympy O n s vs (after h' st0)) = Ret v' -> v = v'.
Proof.
  intros E1 E2 H1 H2 Hv Hv'.
  assert (S : sane (g_real st0) st0) by (split; auto).
  pose proof (sane_after _ h st0 S) as [R1 _]. pose proof (sane_after _ h' st0 S) as [R2 _].
  assert (R : rel0 Both (after h st0) (after h' st0)) by (split; cbn; try congruence; exact I).
  destruct (latex2sympy_outcome O Both n s vs _ _ R) as [H| ->]; [|discriminate].
  unfold outcome in H. rewrite Hv, Hv' in H. apply H.
Qed.
(** Without declarations, a call that returns in a fresh interpreter returns the same after any history *)
Theorem fresh_result h n s vs v :
  g_var (after h (fresh (V := V))) = [] ->
  fst (latex2sympy O n s vs fresh) = Ret v -> fst (latex2sympy O n s vs (after h fresh)) = Ret v.
Proof.
  intros H1 Hv.
  assert (S : sane None (fresh (V := V))) by (split; auto).
  pose proof (sane_after _ h _ S) as [R1 R2].
  assert (R : rel0 Fresh (fresh (V := V)) (after h fresh)).
  { split; cbn; try congruence; [rewrite R2; auto|left; reflexivity|left; reflexivity]. }
  destruct (latex2sympy_outcome O Fresh n s vs _ _ R) as [H| ->]; [|discriminate].
  unfold outcome in H. rewrite Hv in H. destruct (fst (latex2sympy O n s vs (after h fresh))); [|discriminate].
  destruct H as [<- _]. reflexivity.
Qed.

(** Within one call: the values stay those of the call in trees without derivative fractions and nested calls. *)
Definition holds (vs : list (pystr * pv V)) A (m : M G A) : Prop := forall st, g_values st = vs -> g_values (snd (m st)) = vs.
Lemma holds_closed vs : closed O (holds vs).
Proof.
  assert (B : forall A B (m : M G A) (f : A -> M G B), holds vs A m -> (forall a, holds vs B (f a)) -> holds vs B (bind m f)).
  { intros A B m f Hm Hf st S. specialize (Hm st S). unfold bind. destruct (m st) as [[a|e] s]; [apply (Hf a), Hm|exact Hm]. }
  assert (T : forall A (m : M G A), still m -> holds vs A m).
  { intros A m [x Hx] st S. rewrite Hx. exact S. }
  assert (Gs : forall A (f : G -> A), holds vs A (gets f)) by (intros A f st S; exact S).
  split; auto.
  - intros; apply T, still_ret.
  - intros A e. apply T. exists (Raise e). reflexivity.
  - intros; apply T, still_lift.
  - intros. apply T, still_try; [apply still_lift|apply still_ret].
  - unfold check_derivative. apply B.
    + apply B; [apply Gs|intros [b|]]; apply T; eexists; reflexivity.
    + intros []; cbn; [apply T; eexists; reflexivity|]. apply B.
      * apply B; [apply Gs|intros [b|]]; apply T; eexists; reflexivity.
      * intros []; apply T; eexists; reflexivity.
  - intros d p st S. exact S.
  - intro name. unfold make_symbol. apply B; [apply Gs|intro]. apply B; [apply Gs|intro]. destruct (lookup_s _ _); [|apply T, still_ret].
    apply B.
    { apply T, still_try; [|apply still_ret]. apply still_bind; [apply still_lift|intro]. apply still_bind; [apply still_lift|intro; apply still_ret]. }
    intros [m|]; [|apply T, still_ret]. apply B; [apply Gs|intro]. destruct (lookup_v _ _ _); [|apply T, still_ret].
    apply B; [intros st S; exact S|intro; apply T, still_ret].
Qed.
Definition no_derivative (m : mtree) : Prop := forall up lo du dl, within_math (TFrac up lo du dl) m -> dl = DNone.
(** If no text parsed contains a derivative fraction *)
Lemma holds_l2s n : (forall s m, o_parse _ O s = Ret m -> no_derivative m) -> forall vs s, holds vs _ (latex2sympy O n s vs).
Proof.
  intro Hp. induction n as [|n IH]; intros vs s; [intros st S; exact S|].
  intros st S. rewrite latex2sympy_head. unfold bind at 1.
  destruct (head_rel Exact s vs st st) as (s1 & s1' & -> & _ & _ & Hs1); [split; cbn; reflexivity|].
  set (r := rest O n s s1).
  assert (Hh : forall t, holds vs _ (l2s_here (latex2sympy O n) t)).
  { intros t st' S'. unfold l2s_here, gets, bind. rewrite S'. apply IH, S'. }
  assert (Hd : forall du dl, dl = DNone -> holds vs _ (derivative O (latex2sympy O n) du dl)).
  { intros du dl -> st' S'. exact S'. }
  assert (Hdecl : forall k rh, holds vs _ (declare O k rh)) by (intros k rh st' S'; exact S').
  subst r. unfold rest, lift_res, bind at 1. destruct (o_parse V O (prepare s)) as [m|e] eqn:E; [|exact Hs1].
  specialize (Hp _ _ E). destruct m as [r|l].
  - apply (conv_rel_closed O (holds vs) (holds_closed vs) _ (fun _ dl => dl = DNone)); auto.
  - apply (holds_closed vs).(cl_bind O (holds vs)); [|intros a st' S'; exact S'|exact Hs1].
    apply (map_conv_rel_closed O (holds vs) (holds_closed vs) _ (fun _ dl => dl = DNone)); auto.
    intros r Hr up lo du dl W. apply (Hp up lo du dl). exists r; auto.
Qed.
End History.
