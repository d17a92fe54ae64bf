(** Things latex2sympy does that its users may not expect. *)
From Coq Require Import String List NArith ZArith Bool Lia.
From Verif Require Import PyStr PyStrTheory Regex Normalize Monad L2S MonadTheory L2STheory L2SState SplitTheory L2SReject L2SValue.
Import ListNotations.
Local Open Scope mon_scope.

Section F.
Context {V : Type}.
Variable O : LSympy V.
Notation G := (globals V).
Notation val := (lv V).

(** * Values of variables *)
Lemma variable_eq name st : variable O (u "\variable{" ++ name ++ u "}") st =
  (match lookup_s (g_values st) name with
   | Some (PSym v) => Ret (LV v)
   | Some (PObj s) => match o_parse_expr _ O s with Ret v => Ret (LV v) | Raise e => Raise e end
   | Some PPlain => Raise AttributeError
   | None => Ret (LV (o_symbol _ O (name ++ o_md5 _ O name) (g_real st)))
   end, st).
Proof.
  unfold variable. cbv zeta. rewrite app_assoc, ends_brace, <- app_assoc. cbv iota.
  change (skipn 10 (u "\variable{" ++ name ++ u "}")) with (name ++ u "}").
  assert (E : firstn (List.length (name ++ u "}") - 1) (name ++ u "}") = name) by exact (firstn_drop name (u "}")). rewrite E.
  unfold bind, gets, ret, raise, lift_res. destruct (lookup_s (g_values st) name) as [[v|s|]|]; try reflexivity.
  destruct (o_parse_expr V O s); reflexivity.
Qed.
Theorem variable_used n s vs name v st :
  o_parse _ O (prepare s) = Ret (MRel (RExpr (TVariable (u "\variable{" ++ name ++ u "}")))) -> lookup_s vs name = Some (PSym v) ->
  fst (latex2sympy O (S n) s vs st) = Ret (LV v).
Proof.
  intros Hp L. rewrite latex2sympy_head. unfold bind at 1.
  destruct (head_rel Exact s vs st st) as (s1 & s1' & -> & _ & _ & Hs1); [split; cbn; reflexivity|].
  unfold rest, lift_res, bind at 1. rewrite Hp. cbn [conv_rel conv]. rewrite variable_eq, Hs1, L. reflexivity.
Qed.
Theorem values_kept n : (forall s m, o_parse _ O s = Ret m -> no_derivative m) ->
  forall s vs st v st', latex2sympy O n s vs st = (Ret v, st') -> g_values st' = vs.
Proof.
  intros Hn s vs st v st' H. destruct n as [|n]; [discriminate|].
  set (st1 := {| g_real := g_real st; g_frac := g_frac st; g_variances := g_variances st; g_var := g_var st;
                 g_values := vs; g_diff := g_diff st; g_partial := g_partial st |}).
  change (latex2sympy O (S n) s vs st) with (latex2sympy O (S n) s vs st1) in H.
  pose proof (holds_l2s O (S n) Hn vs s st1 eq_refl) as E. rewrite H in E. exact E.
Qed.
Lemma plain_fails name l2s vs : lookup_s vs name = Some PPlain ->
  fails (fun st => g_values st = vs) (conv O l2s (TVariable (u "\variable{" ++ name ++ u "}"))).
Proof. intros L st E. cbn [conv]. rewrite variable_eq, E, L. eexists _, _; reflexivity. Qed.
Theorem plain_rejected s m name vs : (forall s m, o_parse _ O s = Ret m -> no_derivative m) ->
  o_parse _ O (prepare s) = Ret m -> strictly_math (TVariable (u "\variable{" ++ name ++ u "}")) m ->
  lookup_s vs name = Some PPlain -> forall n, never (latex2sympy O n s vs).
Proof.
  intros Hn Hp Hs L n st _. destruct n as [|n]; [eexists _, _; reflexivity|]. rewrite latex2sympy_head. unfold bind at 1.
  destruct (head_rel Exact s vs st st) as (s1 & s1' & -> & _ & _ & Hs1); [split; cbn; reflexivity|].
  set (I := fun st : G => g_values st = vs).
  assert (C : closed O (kept I)) by apply (holds_closed O vs).
  assert (Hh : forall t, kept I _ (l2s_here (latex2sympy O n) t)).
  { intros t st' S'. unfold l2s_here, gets, bind. rewrite S'. apply (holds_l2s O n Hn), S'. }
  assert (Hd : forall du dl, dl = DNone -> kept I _ (derivative O (latex2sympy O n) du dl)).
  { intros du dl -> st' S'. exact S'. }
  assert (Hdecl : forall k rh, kept I _ (declare O k rh)) by (intros k rh st' S'; exact S').
  unfold rest, lift_res, bind at 1. rewrite Hp. specialize (Hn _ _ Hp). revert s1 Hs1. fold (I).
  destruct m as [r|l].
  - apply (fails_strictly_rel O I C (latex2sympy O n) Hh (fun _ dl => dl = DNone) Hd Hdecl _ r Hs); [|apply plain_fails, L].
    exact Hn.
  - apply (fails_l I), (fails_strictly_list O I C (latex2sympy O n) Hh (fun _ dl => dl = DNone) Hd Hdecl _ l Hs); [|apply plain_fails, L].
    intros r Hr up lo du dl W. apply (Hn up lo du dl). exists r; auto.
Qed.

(** Converting a derivative fraction leaves no values behind *)
Lemma holds_ext vs A (m m' : M G A) : (forall st, m st = m' st) -> holds vs A m -> holds vs A m'.
Proof. intros E H st S. rewrite <- E. apply H, S. Qed.
Lemma derivative_empty n : (forall s, holds [] val (latex2sympy O n s [])) -> forall du dl, holds [] _ (derivative O (latex2sympy O n) du dl).
Proof.
  intros IH du dl.
  apply (derivative_closed O (holds []) (holds_closed O []) (fun t vs => match vs with [] => latex2sympy O n t [] | _ => raise (ExcOther 0) end)).
  intros t [|p vs]; [apply IH|intros st S; exact S].
Qed.
Lemma here_empty n : (forall s, holds [] val (latex2sympy O n s [])) -> forall t, holds [] _ (l2s_here (latex2sympy O n) t).
Proof. intros IH t st S. unfold l2s_here, gets, bind. rewrite S. apply IH, S. Qed.
Lemma rest_empty n s : (forall s, holds [] val (latex2sympy O n s [])) -> holds [] _ (rest O n s).
Proof.
  intro IH. unfold rest, lift_res, bind at 1. intros st S. destruct (o_parse V O (prepare s)) as [m|e]; [|exact S].
  destruct m as [r|l].
  - apply (conv_rel_closed O (holds []) (holds_closed O []) _ (fun _ _ => True)); auto using here_empty, derivative_empty.
    intros k rh st' S'; exact S'.
  - apply (holds_closed O []).(cl_bind O (holds [])); [|intros a st' S'; exact S'|exact S].
    apply (map_conv_rel_closed O (holds []) (holds_closed O []) _ (fun _ _ => True)); auto using here_empty, derivative_empty.
    intros k rh st' S'; exact S'.
Qed.
Lemma l2s_empty n : forall s, holds [] val (latex2sympy O n s []).
Proof.
  induction n as [|n IH]; intros s st S; [exact S|]. rewrite latex2sympy_head. unfold bind.
  destruct (head_rel Exact s [] st st) as (s1 & s1' & -> & _ & _ & Hs1); [split; cbn; reflexivity|].
  apply (rest_empty n s IH s1 Hs1).
Qed.
Lemma l2s_empties n s st v st' : latex2sympy O n s [] st = (Ret v, st') -> g_values st' = [].
Proof.
  destruct n as [|n]; [discriminate|]. rewrite latex2sympy_head. unfold bind.
  destruct (head_rel Exact s [] st st) as (s1 & s1' & -> & _ & _ & Hs1); [split; cbn; reflexivity|].
  intro H. pose proof (rest_empty n s (l2s_empty n) s1 Hs1) as E. rewrite H in E. exact E.
Qed.
(** The upper part is d or \partial followed by a text, matching the lower part *)
Definition differentiates (text : pystr) (du : dupper) (dl : dlower) : Prop :=
  match dl with
  | DNone => False
  | DDiff _ => exists sp, du = UText sp (u "d" ++ text)
  | DPartial _ => du = UText true (u "\partial" ++ text)
  end.
Lemma derivative_eq n text du dl st : differentiates text du dl ->
  (exists s1, derivative O (latex2sympy O n) du dl st = (Raise (ExcOther 2), s1)) \/
  (exists w s1', derivative O (latex2sympy O n) du dl st =
    (top <- latex2sympy O n text [] ;;
     b <- (match top with LNone => ret false | _ => lift_res (o_truthy _ O top) end) ;;
     if b then v <- lift_res (o_Derivative _ O top w) ;; ret (Some (LV v)) else ret None) s1').
Proof.
  intro D. destruct dl as [|dt|name]; [destruct D| |].
  - destruct D as [sp ->]. unfold derivative. unfold bind at 1, set_flags at 1. unfold differential_var.
    destruct (skip_blanks (skipn 1 dt)) as [x|]; [|left; eexists; reflexivity].
    assert (E : exists wrt, match x with 92%N :: s => ret s | _ => ret x end = @ret G pystr wrt).
    { destruct x as [|c x]; [eexists; reflexivity|]. destruct c as [|p]; [eexists; reflexivity|].
      do 7 (destruct p as [p|p|]; try (eexists; reflexivity)). }
    destruct E as [wrt ->]. unfold bind at 1, ret at 1. unfold bind at 1, set_flags. unfold bind at 1, gets.
    right. eexists _, _. cbn [negb andb]. change (starts_with (u "d") (u "d" ++ text)) with true. cbv iota. reflexivity.
  - cbn [differentiates] in D. subst du. unfold derivative. unfold bind at 1, set_flags at 1. unfold bind at 1, set_flags. unfold bind at 1, gets.
    right. eexists _, _. cbn [negb andb]. change (skipn (List.length (u "\partial")) (u "\partial" ++ text)) with text. reflexivity.
Qed.
Theorem derivative_clears n text du dl up lo st v st' : differentiates text du dl ->
  conv O (latex2sympy O n) (TFrac up lo du dl) st = (Ret v, st') -> g_values st' = [].
Proof.
  intros D H. cbn [conv] in H. apply bind_inv in H. destruct H as (d & s1 & Hd & H).
  assert (E : g_values s1 = []).
  { destruct (derivative_eq n text du dl st D) as [[s2 E]|(w & s3 & E)]; rewrite E in Hd; [discriminate|].
    apply bind_inv in Hd. destruct Hd as (top & s4 & Ht & Hd). apply l2s_empties in Ht. rewrite <- Ht.
    apply bind_inv in Hd. destruct Hd as (b & s5 & Hb & Hd).
    assert (s5 = s4) as -> by (destruct top; unfold lift_res, ret in Hb; congruence).
    destruct b; [|unfold ret in Hd; congruence]. apply bind_inv in Hd. destruct Hd as (x & s6 & Hx & Hd).
    unfold lift_res, ret in *. congruence. }
  destruct d; [unfold ret in H; congruence|].
  assert (K : forall t, holds [] val (conv O (latex2sympy O n) t)).
  { intro t. apply (conv_closed O (holds []) (holds_closed O []) _ (fun _ _ => True)); auto using here_empty, derivative_empty, l2s_empty. }
  apply bind_inv in H. destruct H as (x & s2 & Hx & H). apply bind_inv in H. destruct H as (y & s3 & Hy & H).
  pose proof (K up s1 E) as E2. rewrite Hx in E2. pose proof (K lo s2 E2) as E3. rewrite Hy in E3.
  pose proof (cl_do_div O (holds []) (holds_closed O []) x y s3 E3) as E4. rewrite H in E4. exact E4.
Qed.
(** so variables to the right of it are not replaced *)
Theorem variable_after_derivative n text du dl up lo st v st' name : differentiates text du dl ->
  conv O (latex2sympy O n) (TFrac up lo du dl) st = (Ret v, st') ->
  conv O (latex2sympy O n) (TVariable (u "\variable{" ++ name ++ u "}")) st' = (Ret (LV (o_symbol _ O (name ++ o_md5 _ O name) (g_real st'))), st').
Proof. intros D H. cbn [conv]. rewrite variable_eq, (derivative_clears _ _ _ _ _ _ _ _ _ D H). reflexivity. Qed.
(** A derivative of something falsy (zero) is read as an ordinary fraction of the two texts *)
Theorem zero_derivative n text du dl up lo st top s1 : differentiates text du dl ->
  (forall st, exists s, latex2sympy O n text [] st = (Ret (LV top), s)) -> o_truthy _ O (LV top) = Ret false ->
  conv O (latex2sympy O n) (TFrac up lo du dl) st = s1 -> fst s1 <> Raise (ExcOther 2) ->
  exists s, s1 = (x <- conv O (latex2sympy O n) up ;; y <- conv O (latex2sympy O n) lo ;; do_div O x y) s.
Proof.
  intros D Ht Hf <-. cbn [conv].
  destruct (derivative_eq n text du dl st D) as [[s2 E]|(w & s3 & E)].
  - unfold bind at 1. rewrite E. intro H. contradiction H. reflexivity.
  - intros _. destruct (Ht s3) as [s4 E4].
    assert (E5 : derivative O (latex2sympy O n) du dl st = (Ret None, s4)).
    { rewrite E. unfold bind at 1. rewrite E4. unfold bind, lift_res. rewrite Hf. reflexivity. }
    exists s4. unfold bind at 1. rewrite E5. reflexivity.
Qed.

(** * Powers of functions *)
Theorem zero_power l2s f op sub e arg st v s1 z s2 :
  conv O l2s (TFunc f op sub None arg) st = (Ret v, s1) ->
  conv O l2s e s1 = (Ret z, s2) -> o_truthy _ O z = Ret false -> o_is_minus_one _ O z = Ret false ->
  conv O l2s (TFunc f op sub (Some e) arg) st = (Ret v, s2).
Proof.
  intros H Hz Hf Hm. cbn [conv] in H |- *. apply bind_inv in H. destruct H as (x & t1 & Hx & H).
  apply bind_inv in H. destruct H as (b & t2 & Hb & H). apply bind_inv in H. destruct H as (fv & t3 & Hfv & H).
  unfold bind at 1. rewrite Hx. unfold bind at 1. rewrite Hb. unfold bind at 1. rewrite Hfv.
  cbn [opt_conv] in H |- *. unfold bind at 1, ret at 1 in H.
  assert (t3 = s1) as ->.
  { unfold func_power, call, bind, ret, raise, lift_res in H. destruct (one_of f trig).
    - destruct (o_call V O f [x]); [|discriminate]. congruence.
    - destruct fv; congruence. }
  unfold bind at 1. unfold bind at 1. rewrite Hz. unfold ret at 1.
  unfold func_power, call, lift_res in *. rewrite Hm, Hf. unfold bind, ret, raise in *.
  destruct (one_of f trig).
  - destruct (o_call V O f [x]); [|discriminate]. cbn [andb]. congruence.
  - destruct fv; [cbn [andb]; congruence|discriminate].
Qed.
Theorem zero_power_funcs l2s f op e args st v s1 z s2 :
  conv O l2s (TFuncs f op None args) st = (Ret v, s1) ->
  conv O l2s e s1 = (Ret z, s2) -> o_truthy _ O z = Ret false ->
  conv O l2s (TFuncs f op (Some e) args) st = (Ret v, s2).
Proof.
  intros H Hz Hf. cbn [conv] in H |- *. destruct args as [text|]; [|discriminate].
  apply bind_inv in H. destruct H as (vs & t1 & Hvs & H). apply bind_inv in H. destruct H as (x & t2 & Hx & H).
  unfold bind at 1. rewrite Hvs. unfold bind at 1. rewrite Hx. cbn [opt_conv] in H |- *. unfold bind, ret in H.
  inversion H; subst. unfold bind at 1. unfold bind at 1. rewrite Hz. unfold ret at 1. unfold bind, lift_res. rewrite Hf. reflexivity.
Qed.

(** * Tuples and dicts in products *)
Theorem tuple_ends_product l2s t d st s1 l : conv O l2s t st = (Ret (LTD d), s1) -> conv O l2s (TJuxt (t :: l)) st = (Ret (LTD d), s1).
Proof. intro H. cbn [conv juxtapose]. unfold bind. rewrite H. reflexivity. Qed.
Theorem tuple_not_first l2s r x t d st s1 s2 l : conv O l2s r st = (Ret (LV x), s1) -> conv O l2s t s1 = (Ret (LTD d), s2) ->
  exists e s, conv O l2s (TJuxt (r :: t :: l)) st = (Raise e, s).
Proof.
  intros Hr Ht. cbn [conv juxtapose]. unfold bind at 1. rewrite Hr. unfold bind at 1. unfold bind at 1. rewrite Ht.
  change ((match LTD d with LV _ => match l with [] => ret (LTD d) | _ => rh <- juxtapose O (conv O l2s) l ;; do_mul O (LTD d) rh end | _ => @ret G val (LTD d) end) s2) with (Ret (@LTD V d), s2).
  unfold ret at 1. unfold do_mul. unfold bind at 1. unfold some_matrix, is_matrix. unfold bind at 1, ret at 1.
  destruct (o_is_Matrix V O x); [|eexists _, _; reflexivity].
  unfold ret. unfold mat_mul_flat. cbn [flag]. rewrite orb_false_r.
  destruct (o_is_MatMul V O x).
  - unfold bind at 1. match goal with |- context [doit_all O ?l s2] => assert (N : exists e s, doit_all O l s2 = (Raise e, s)) end.
    { set (k := flat O (o_is_MatMul V O) (LV x)). clearbody k. cbn [flat]. revert s2 Ht. clear.
      induction k as [|a k IH]; intros s2 Ht; [eexists _, _; reflexivity|]. cbn [app doit_all]. unfold bind at 1.
      destruct (doit O a s2) as [[v|e] s3] eqn:Ed; [|eauto]. assert (s3 = s2) as ->.
      { destruct a; cbn in Ed; try discriminate. unfold bind, lift_res, ret in Ed. destruct (o_doit V O v0); congruence. }
      unfold bind at 1. destruct (IH s2 Ht) as (e & s & E). rewrite E. eauto. }
    destruct N as (e & s & ->). eauto.
  - unfold bind at 1. destruct (doit_maybe O (LV x) s2) as [[y|e] s3]; [|eauto]. unfold bind at 1, doit_maybe at 1, ret at 1.
    unfold build, bind at 1. cbn [sympify_all]. unfold bind at 1. destruct (sympify O y s3) as [[z|e] s4]; [|eauto].
    eexists _, _; reflexivity.
Qed.

(** * Arguments of functions *)
Lemma map_l2s_length (f : pystr -> M G val) l st vs st' : map_l2s f l st = (Ret vs, st') -> List.length vs = List.length l.
Proof.
  revert st vs st'. induction l as [|t l IH]; intros st vs st' H; cbn [map_l2s] in H; [inversion H; reflexivity|].
  apply bind_inv in H. destruct H as (v & s1 & _ & H). apply bind_inv in H. destruct H as (vs' & s2 & H' & H).
  inversion H; subst. cbn [List.length]. rewrite (IH _ _ _ H'). reflexivity.
Qed.
Lemma fails_map_l2s (f : pystr -> M G val) l t : In t l -> never (f t) -> never (map_l2s f l).
Proof.
  intros Ht F. induction l as [|a l IH]; [destruct Ht|]. cbn [map_l2s]. destruct Ht as [->|Ht]; [apply fails_l, F|].
  apply fails_r; [apply anything_kept|intro]. apply fails_l, IH, Ht.
Qed.
Definition comma_free (s : pystr) : Prop := ~ In 44%N s.
Lemma split_commas parts : parts <> [] -> Forall comma_free parts -> split_on (u ",") (join (u ",") parts) = parts.
Proof.
  intros Hne F. apply split_on_join; [discriminate|exact Hne| |].
  - apply Forall_impl with (2 := F). intros x Hx. apply (clean_single 44%N x Hx).
  - assert (L : comma_free (last parts [])).
    { clear Hne. induction F as [|x l Hx F IH]; [intros []|]. destruct l; [exact Hx|exact IH]. }
    intros p q E. apply L. rewrite E. apply in_or_app. right. left. reflexivity.
Qed.
(** The text between the parentheses is cut at every comma, whatever it encloses *)
Theorem arguments_cut l2s name op parts st v st' : parts <> [] -> Forall comma_free parts ->
  conv O l2s (TFuncs name op None (Some (join (u ",") parts))) st = (Ret v, st') ->
  exists vs s1, map_l2s (l2s_here l2s) parts st = (Ret vs, s1) /\ List.length vs = List.length parts /\ apply_funcs O name op vs s1 = (Ret v, st').
Proof.
  intros Hne F H. cbn [conv] in H. rewrite split_commas in H by assumption. apply bind_inv in H. destruct H as (vs & s1 & Hvs & H).
  apply bind_inv in H. destruct H as (x & s2 & Hx & H). cbn [opt_conv] in H. unfold bind, ret in H. inversion H; subst.
  exists vs, s1. split; [exact Hvs|]. split; [apply map_l2s_length in Hvs; exact Hvs|exact Hx].
Qed.
(** so one piece that does not parse refuses the whole text *)
Theorem piece_rejected name op sup parts p e : parts <> [] -> Forall comma_free parts -> In p parts -> o_parse _ O (prepare p) = Raise e ->
  forall n, never (conv O (latex2sympy O n) (TFuncs name op sup (Some (join (u ",") parts)))).
Proof.
  intros Hne F Hp Hpe n. cbn [conv]. rewrite split_commas by assumption. apply fails_l, fails_map_l2s with p; [exact Hp|].
  intros st _. unfold l2s_here, gets, bind at 1. destruct n as [|n]; [eexists _, _; reflexivity|].
  cbn [latex2sympy]. unfold bind, gets, set_frac, set_values, lift_res. rewrite Hpe. eexists _, _; reflexivity.
Qed.
Theorem no_parentheses l2s name op sup : never (conv O l2s (TFuncs name op sup None)).
Proof. intros st _. eexists _, _; reflexivity. Qed.
End F.

(** * The letter I *)
Theorem imaginary_scripts {A} (K : arithmetic A) V den rho values hash (O : LSympy V) l2s : faithful K V den rho values hash O ->
  forall sub sup, yields V den values O (conv O l2s (TSymbol (NLetter (u "I")) sub sup)) (const_I K).
Proof. intros F sub sup st E1 E2. exists (o_I V O), st. repeat split; try assumption; apply (f_I _ _ _ _ _ _ _ F). Qed.

Theorem imaginary_top {A} (K : arithmetic A) V (O : LSympy V) den rho vs n s st sub sup : faithful K V den rho vs (o_md5 _ O) O ->
  o_parse _ O (prepare s) = Ret (MRel (RExpr (TSymbol (NLetter (u "I")) sub sup))) ->
  exists v, fst (latex2sympy O (S n) s vs st) = Ret (LV v) /\ den v = const_I K.
Proof.
  intros F Hp. rewrite latex2sympy_head. unfold bind at 1.
  destruct (head_rel Exact s vs st st) as (s1 & s1' & -> & _ & _ & Hs1); [split; cbn; reflexivity|].
  unfold rest, lift_res, bind at 1. rewrite Hp. exists (o_I V O). split; [reflexivity|apply (f_I _ _ _ _ _ _ _ F)].
Qed.
