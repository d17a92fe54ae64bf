(** Deciding that no pattern of the normaliser matches inside any string of a regular language.

    The language is given by an automaton: a partial transition function on finitely many states.
    Where NormTheory's alphabets can only rule out a pattern by a character it needs, an automaton
    rules it out by the order of characters, so commands such as \frac can be admitted although their
    letters occur in unit names. *)
From Coq Require Import String List NArith ZArith Bool Lia Arith.
From Verif Require Import UnicodeTables PyStr PyStrTheory NumTheory Regex RegexTheory Float64 Constants Normalize NormTheory NormNum SplitTheory.
Import ListNotations.
Local Open Scope N_scope.

(** "- *" -> "-" does nothing when no minus sign is followed by a space *)
Lemma minus_sub_absent s : contains [45; 32] s = false -> re_sub (RSeq (lit 45) (RStarG sp)) [PLit (u "-")] s = s.
Proof.
  intro H. unfold re_sub, re_sub_fun. generalize (@nil N) as pre. intro pre. revert H.
  apply (sub_go_ind (RSeq (lit 45) (RStarG sp)) _ (fun _ s o => contains [45; 32] s = false -> o = s)).
  - reflexivity.
  - intros _ c s0 o IH Hn. rewrite IH; [reflexivity|]. cbn [contains] in Hn. apply orb_false_iff in Hn. apply Hn.
  - intros _ w s0 o st Hw _ _ Hd _ IH Hn. rewrite IH.
    2:{ destruct (contains [45; 32] s0) eqn:E; [|reflexivity]. rewrite <- Hn. symmetry. apply contains_spec. apply contains_spec in E.
        destruct E as (a & b & ->). exists (w ++ a), b. rewrite <- !app_assoc. reflexivity. }
    f_equal. cbn [den] in Hd. destruct Hd as (w1 & w2 & -> & (c & -> & Hc) & Hst).
    cbn [cls_in] in Hc. apply N.eqb_eq in Hc. subst c. assert (w2 = []) as ->; [|reflexivity].
    destruct w2 as [|c w2]; [reflexivity|]. exfalso.
    inversion Hst as [|a b Hne Ha Hb E]; subst. destruct Ha as (x & -> & Hx). cbn [cls_in] in Hx. apply N.eqb_eq in Hx. subst x.
    injection E as <- _. cbn [app contains starts_with] in Hn. discriminate.
Qed.
Lemma strip_sp_of_strip s : strip s = s -> strip_sp s = s.
Proof.
  intro H. destruct (strip_by_spec (N.eqb 32) s) as (w1 & w2 & E & H1 & H2).
  assert (S1 : forall w, forallb (N.eqb 32) w = true -> forallb is_space w = true).
  { intros w Hw. rewrite forallb_forall in *. intros c Hc. apply Hw, N.eqb_eq in Hc. subst c. reflexivity. }
  unfold strip in H. pose proof (strip_by_pad is_space w1 w2 (strip_sp s) (S1 _ H1) (S1 _ H2)) as P. unfold strip_sp in *. rewrite <- E, H in P.
  pose proof (strip_by_length is_space (strip_by (N.eqb 32) s)) as L. rewrite <- P in L.
  pose proof (f_equal (@length N) E) as L2. rewrite !app_length in L2.
  destruct w1; [|cbn in L2; lia]. destruct w2; [|cbn in L2; lia]. cbn [app] in E. rewrite app_nil_r in E. symmetry. exact E.
Qed.

Section Automaton.
Variable Q : Type.
Variable eqb : Q -> Q -> bool.
Hypothesis eqb_ok : forall p q, eqb p q = true <-> p = q.
Variable states : list Q.
Variable alpha : pystr.
Variable delta : Q -> N -> option Q.

(** The state after reading [s] from [q] *)
Fixpoint run (q : Q) (s : pystr) : option Q :=
  match s with
  | [] => Some q
  | c :: s' => if mem_cp alpha c then match delta q c with Some q' => run q' s' | None => None end else None
  end.
Lemma run_app q s t : run q (s ++ t) = match run q s with Some q' => run q' t | None => None end.
Proof.
  revert q. induction s as [|c s IH]; intro q; [reflexivity|]. cbn [app run]. destruct (mem_cp alpha c); [|reflexivity].
  destruct (delta q c); [apply IH|reflexivity].
Qed.

Definition has (q : Q) (l : list Q) : bool := existsb (eqb q) l.
Lemma has_in q l : has q l = true <-> In q l.
Proof.
  unfold has. rewrite existsb_exists. split; [intros (x & Hx & E); apply eqb_ok in E; subst; exact Hx|].
  intro H. exists q. split; [exact H|apply eqb_ok; reflexivity].
Qed.
(** Transitions stay among the listed states. *)
Definition closed_states : bool :=
  forallb (fun q => forallb (fun c => match delta q c with Some q' => has q' states | None => true end) alpha) states.
Hypothesis Hclosed : closed_states = true.

Lemma mem_in l c : mem_cp l c = true <-> In c l.
Proof.
  unfold mem_cp. rewrite existsb_exists. split; [intros (x & Hx & E)|intro H]; [|exists c; split; [exact H|apply N.eqb_refl]].
  apply N.eqb_eq in E. subst. exact Hx.
Qed.
Lemma delta_states q c q' : In q states -> mem_cp alpha c = true -> delta q c = Some q' -> In q' states.
Proof.
  intros Hq Hc E. unfold closed_states in Hclosed. rewrite forallb_forall in Hclosed. specialize (Hclosed q Hq).
  rewrite forallb_forall in Hclosed. specialize (Hclosed c (proj1 (mem_in _ _) Hc)). rewrite E in Hclosed. apply has_in, Hclosed.
Qed.
Lemma run_states s : forall q q', In q states -> run q s = Some q' -> In q' states.
Proof.
  induction s as [|c s IH]; intros q q' Hq H; [injection H as <-; exact Hq|]. cbn [run] in H. destruct (mem_cp alpha c) eqn:Ec; [|discriminate].
  destruct (delta q c) as [p|] eqn:E; [|discriminate]. eapply IH; [|exact H]. eapply delta_states; eauto.
Qed.

(** ** The states in which a pattern can leave the automaton *)
Fixpoint dedup (l : list Q) : list Q :=
  match l with
  | [] => []
  | q :: l' => let r := dedup l' in if has q r then r else q :: r
  end.
Lemma dedup_in q l : In q (dedup l) <-> In q l.
Proof.
  induction l as [|p l IH]; [reflexivity|]. cbn [dedup]. destruct (has p (dedup l)) eqn:E; cbn [In]; [|rewrite IH; reflexivity].
  rewrite IH. split; [auto|intros [->|H]; [|exact H]]. apply has_in in E. apply IH, E.
Qed.
Definition step_set (k : cls) (X : list Q) : list Q :=
  let cs := filter (cls_in k) alpha in
  dedup (flat_map (fun q => flat_map (fun c => match delta q c with Some q' => [q'] | None => [] end) cs) X).
(** closure of [X] under [f], everything if the fuel runs out *)
Fixpoint saturate (f : list Q -> list Q) (n : nat) (X : list Q) : list Q :=
  match n with
  | O => states
  | S n' => let Y := f X in if forallb (fun q => has q X) Y then X else saturate f n' (dedup (Y ++ X))
  end.
Fixpoint reach (r : regex) (X : list Q) : list Q :=
  match r with
  | RChr k => step_set k X
  | RSeq a b => match reach a X with [] => [] | Y => reach b Y end
  | RAlt a b => dedup (reach a X ++ reach b X)
  | RStar _ a => saturate (reach a) (S (length states)) X
  | RGrp _ a => reach a X
  | _ => X
  end.
Lemma saturate_spec f n : forall X, saturate f n X = states \/ (incl X (saturate f n X) /\ incl (f (saturate f n X)) (saturate f n X)).
Proof.
  induction n as [|n IH]; intro X; [left; reflexivity|]. cbn [saturate]. destruct (forallb _ _) eqn:E.
  - right. split; [apply incl_refl|]. rewrite forallb_forall in E. intros q Hq. apply has_in, E, Hq.
  - destruct (IH (dedup (f X ++ X))) as [H|[H1 H2]]; [left; exact H|right; split; [|exact H2]].
    intros q Hq. apply H1, dedup_in, in_or_app. right; exact Hq.
Qed.
Lemma reach_sound r : forall X q w q', In q X -> In q states -> run q w = Some q' -> den r w -> In q' (reach r X).
Proof.
  induction r as [|k|a IHa b IHb|a IHa b IHb|g a IHa|n a IHa| | |pos k|pos k]; intros X q w q' HX Hq Hr Hd; cbn [den] in Hd; cbn [reach];
    try (subst w; injection Hr as <-; exact HX).
  - destruct Hd as (c & -> & Hc). cbn [run] in Hr. destruct (mem_cp alpha c) eqn:Ec; [|discriminate].
    destruct (delta q c) as [p|] eqn:E; [|discriminate]. injection Hr as <-. unfold step_set. apply dedup_in, in_flat_map.
    exists q. split; [exact HX|]. apply in_flat_map. exists c. split; [apply filter_In; split; [apply mem_in, Ec|exact Hc]|].
    rewrite E. left; reflexivity.
  - destruct Hd as (w1 & w2 & -> & H1 & H2). rewrite run_app in Hr. destruct (run q w1) as [p|] eqn:E; [|discriminate].
    pose proof (IHa X q w1 p HX Hq E H1) as Hp. destruct (reach a X) as [|y Y] eqn:Ey; [contradiction|].
    eapply IHb; eauto. eapply run_states; eauto.
  - apply dedup_in, in_or_app. destruct Hd as [Hd|Hd]; [left; eapply IHa; eauto|right; eapply IHb; eauto].
  - destruct (saturate_spec (reach a) (S (length states)) X) as [E|[E1 E2]].
    + rewrite E. eapply run_states; eauto.
    + apply E1 in HX. revert E2 HX. generalize (saturate (reach a) (S (length states)) X). intros Z E2 HX.
      clear E1 X. revert q Hq HX Hr. induction Hd as [|x y Hne Hx Hy IH]; intros q Hq HX Hr; [injection Hr as <-; exact HX|].
      rewrite run_app in Hr. destruct (run q x) as [p|] eqn:Ep; [|discriminate].
      apply (IH p); auto; [eapply run_states; eauto|]. apply E2. eapply IHa; eauto.
  - eapply IHa; eauto.
Qed.

(** Nothing in the language contains a match. *)
Definition dead (r : regex) : bool := match reach r states with [] => true | _ => false end.
Definition readable (s : pystr) : Prop := exists q q', In q states /\ run q s = Some q'.
Lemma readable_infix w s : infix w s -> readable s -> readable w.
Proof.
  intros (a & b & ->) (q & q' & Hq & H). rewrite run_app in H. destruct (run q a) as [p|] eqn:E; [|discriminate].
  rewrite run_app in H. destruct (run p w) as [p'|] eqn:E'; [|discriminate]. exists p, p'. split; [eapply run_states; eauto|exact E'].
Qed.
Lemma dead_sound r w s : dead r = true -> readable s -> infix w s -> ~ den r w.
Proof.
  unfold dead. intros H Hs Hw Hd. destruct (readable_infix w s Hw Hs) as (q & q' & Hq & E).
  pose proof (reach_sound r states q w q' Hq Hq E Hd) as R. destruct (reach r states); [contradiction|discriminate].
Qed.
Lemma dead_search r s : dead r = true -> readable s -> re_search r s = None.
Proof. intros H Hs. apply search_none_den. intros w Hw. eapply dead_sound; eauto. Qed.
Lemma dead_test r s : dead r = true -> readable s -> re_test r s = false.
Proof. intros H Hs. unfold re_test. rewrite dead_search; auto. Qed.
Lemma dead_sub r t s : dead r = true -> readable s -> re_sub r t s = s.
Proof. intros H Hs. apply sub_id_den. intros w Hw _. eapply dead_sound; eauto. Qed.
Lemma dead_sub_fun r f s : dead r = true -> readable s -> re_sub_fun r f s = s.
Proof. intros H Hs. apply sub_id_den. intros w Hw _. eapply dead_sound; eauto. Qed.
Lemma dead_del r s : dead r = true -> readable s -> re_del r s = s.
Proof. apply dead_sub. Qed.
Lemma den_rstr p : den (rstr p) p.
Proof. induction p as [|c p IH]; [reflexivity|]. cbn [rstr den]. exists [c], p. split; [reflexivity|]. split; [exists c; split; [reflexivity|apply N.eqb_refl]|exact IH]. Qed.
Lemma dead_contains p s : dead (rstr p) = true -> readable s -> contains p s = false.
Proof.
  intros H Hs. destruct (contains p s) eqn:E; [|reflexivity]. exfalso. apply contains_spec in E. destruct E as (a & b & E).
  apply (dead_sound (rstr p) p s H Hs); [exists a, b; exact E|apply den_rstr].
Qed.
Lemma dead_replace p q s : dead (rstr p) = true -> readable s -> replace p q s = s.
Proof. intros H Hs. apply replace_absent, dead_contains; assumption. Qed.
Lemma readable_alpha s c : readable s -> In c s -> In c alpha.
Proof.
  intros (q & q' & _ & H). revert q H. induction s as [|d s IH]; intros q H Hc; [contradiction|]. cbn [run] in H.
  destruct (mem_cp alpha d) eqn:Ed; [|discriminate]. destruct (delta q d) as [p|]; [|discriminate].
  destruct Hc as [->|Hc]; [apply mem_in, Ed|eauto].
Qed.

(** ** Everything the normaliser looks for is dead: it only removes the spaces and capitals. *)
Definition sought_first : list regex := [rs "{cases}"; rs "{array}"; rs "\\"].
Definition sought : list regex :=
  [rs "%"; rs "\$"; rs "$"; rs "million"; rs "billion"; rs "trillion";
   rstr [12]; rstr [8]; rstr [7]; rstr [9]; rstr [13];
   text_wrap_re; set_builder_re; rs "\:"; rs "\,"; rs "\;"; rs "\!"; rs "{,}"; base_re; and_or_re;
   rs "\left("; rs "\left["; rs "\right)"; rs "\right]"; in_re; time_re1; time_re2; text_re; circ_re;
   rs "\tfrac"; rs "\cfrac"; rs "\dfrac"; rs "√"; rs "π"; rs "∞"; rs "∪"; rs "·"; rs "×"; rs "- "; mixed_re1; mixed_re2].
Definition left_alone : bool :=
  forallb dead sought
  && forallb (fun x => dead (unit_text_re (u "text") x) && dead (unit_text_re (u "mbox") x)) UNIT_LIST
  && forallb (fun x => dead (unit_long_re x)) UNIT_LONG_LIST
  && forallb (fun x => dead (unit_short_re x)) UNIT_SHORT_LIST.
Definition undisturbed : bool := forallb dead sought_first && left_alone.

Section Undisturbed.
Hypothesis Hun : left_alone = true.
Variable s : pystr.
Hypothesis Hs : readable s.
Hypothesis Hm : str_matrix_normalize s = s.
Let G : forall r, In r sought -> dead r = true.
Proof. apply forallb_forall. unfold left_alone in Hun. rewrite !andb_true_iff in Hun. tauto. Qed.
Ltac mem := unfold sought; repeat first [left; reflexivity | right].
Ltac absent := (exact Hs || (apply G; mem)).

Lemma un_tex_space : del_tex_space s = s.
Proof. unfold del_tex_space, re_del. rewrite ?(fun r t => dead_sub r t s) by absent. reflexivity. Qed.
Lemma un_words : rewrite_words s = s.
Proof.
  unfold rewrite_words.
  rewrite (dead_replace (u "\$")), (dead_replace (u "$")) by absent.
  rewrite (dead_sub and_or_re) by absent.
  rewrite (dead_replace (u "million")), (dead_replace (u "billion")), (dead_replace (u "trillion")), (dead_replace [12]),
    (dead_replace [8]), (dead_replace [7]), (dead_replace [9]), (dead_replace [13]) by absent.
  rewrite ?(fun r t => dead_sub r t s) by absent. apply dead_del; absent.
Qed.
Lemma un_time : str_to_time_list s = NStr s.
Proof. unfold str_to_time_list. rewrite ?(fun r => dead_search r s) by absent. reflexivity. Qed.
Lemma un_units : del_units s = s.
Proof.
  unfold left_alone in Hun. rewrite !andb_true_iff in Hun. destruct Hun as [[[_ H1] H2] H3].
  rewrite forallb_forall in H1, H2, H3.
  unfold del_units, del_text_units.
  rewrite (fold_id _ UNIT_LIST s).
  2:{ intros x Hx. apply H1 in Hx. apply andb_true_iff in Hx. rewrite ?(fun r => dead_del r s) by tauto. reflexivity. }
  rewrite (dead_del text_re) by absent.
  unfold del_long_units. rewrite (fold_id _ UNIT_LONG_LIST s) by (intros x Hx; apply dead_del; auto).
  unfold del_short_units. apply fold_id. intros x Hx; apply dead_del; auto.
Qed.
Lemma un_tail ints : norm_tail ints s = NStr (further ints s).
Proof.
  unfold norm_tail. rewrite un_tex_space. rewrite dead_search by absent. rewrite (dead_contains (u "%")) by absent.
  rewrite un_words, un_time, un_units. unfold norm_circ. rewrite dead_test by absent. reflexivity.
Qed.
Lemma un_normalize ints : strip_sp s = s -> string_normalize ints s = NStr (further ints s).
Proof.
  intro Hsp. unfold string_normalize. destruct (2 * length s)%nat as [|n]; cbn [norm_fuel]; rewrite Hsp, Hm;
  rewrite ?(fun r => dead_search r s) by absent; apply un_tail.
Qed.
Lemma un_parse_latex : Normalize.parse_latex s = strip s.
Proof. unfold Normalize.parse_latex. rewrite ?(fun p q => dead_replace p q s) by absent. reflexivity. Qed.
Lemma un_mixed : inject_mixed s = s.
Proof. unfold inject_mixed. rewrite ?(fun r t => dead_sub r t s) by absent. reflexivity. Qed.
Lemma un_minus : re_sub (RSeq (lit 45) (RStarG sp)) [PLit (u "-")] s = s.
Proof. apply minus_sub_absent, dead_contains; absent. Qed.

Lemma un_further ints : strip s = s -> starts_with [123] s = false -> py_float s = None -> str_is_int (lower (replace [32] [] s)) = false ->
  further ints s = lower (replace [32] [] s).
Proof.
  intros Hst Hb Hf Hi. unfold further. rewrite Hb. cbn [andb]. cbv zeta. unfold norm_int. rewrite Hf.
  rewrite un_parse_latex, Hst. replace (if contains [bslash] s then s else s) with s by (destruct (contains _ _); reflexivity).
  rewrite un_minus, un_mixed, Hi. reflexivity.
Qed.
Theorem alone_normalizes ints : strip s = s -> starts_with [123] s = false -> py_float s = None -> str_is_int (lower (replace [32] [] s)) = false ->
  string_normalize ints s = NStr (lower (replace [32] [] s)).
Proof.
  intros Hst Hb Hf Hi. rewrite un_normalize, un_further; auto. apply strip_sp_of_strip, Hst.
Qed.
End Undisturbed.

(** Without environments and double backslashes *)
Lemma un_matrix s : undisturbed = true -> readable s -> str_matrix_normalize s = s.
Proof.
  intros Hun Hs. unfold undisturbed, sought_first in Hun. cbn [forallb] in Hun. rewrite !andb_true_iff in Hun. destruct Hun as [(H1 & H2 & H3 & _) _].
  unfold str_matrix_normalize. rewrite (dead_contains (u "{cases}")), (dead_contains (u "{array}")) by assumption.
  destruct (negb _); [|reflexivity]. apply dead_replace; assumption.
Qed.
Theorem un_normalizes : undisturbed = true -> forall s, readable s -> forall ints, strip s = s -> starts_with [123] s = false -> py_float s = None ->
  str_is_int (lower (replace [32] [] s)) = false -> string_normalize ints s = NStr (lower (replace [32] [] s)).
Proof.
  intros Hun s Hs ints. apply alone_normalizes; [|exact Hs|apply un_matrix; assumption]. unfold undisturbed in Hun. apply andb_true_iff in Hun. tauto.
Qed.
End Automaton.
