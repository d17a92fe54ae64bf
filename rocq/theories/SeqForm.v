(** Written sequences are in normal form up to spaces, and are cut at their commas. *)
From Coq Require Import String List NArith ZArith Bool Lia Arith.
From Verif Require Import UnicodeTables PyStr PyStrTheory NumTheory Regex RegexTheory Float64 Constants Normalize NormTheory NormNum Monad Split SplitTheory NormPct NormAlg
  L2SValue Arith ArithLex Automaton FloatText LatexForm Answer SeqAuto.
Import ListNotations.
Local Open Scope N_scope.

(** ** The automaton reads them *)
Lemma alphabet_no_comma c : mem_cp text_alphabet c = true -> (c =? 44) = false /\ mem_cp seq_alphabet c = true.
Proof.
  intro H. split.
  - destruct (N.eqb_spec c 44) as [->|]; [vm_compute in H; discriminate|reflexivity].
  - unfold seq_alphabet. unfold mem_cp in *. cbn [existsb]. rewrite H. apply orb_true_r.
Qed.
Lemma move_turn q c p : mem_cp text_alphabet c = true -> move q c = Some p -> turn (Some q) c = Some (Some p).
Proof.
  intros Hc H. destruct (alphabet_no_comma c Hc) as [E _]. unfold turn. rewrite E.
  destruct q; try (rewrite H; reflexivity). destruct (N.eqb_spec c 91) as [->|]; [vm_compute in H; discriminate|rewrite H; reflexivity].
Qed.
Lemma go_pass s : forall q q', go q s = Some q' -> pass (Some q) s = Some (Some q').
Proof.
  unfold go, pass. induction s as [|c s IH]; intros q q' H; [injection H as <-; reflexivity|]. cbn [run] in *.
  destruct (mem_cp text_alphabet c) eqn:Ec; [|discriminate]. rewrite (proj2 (alphabet_no_comma c Ec)).
  destruct (move q c) as [p|] eqn:Em; [|discriminate]. rewrite (move_turn q c p Ec Em). apply IH, H.
Qed.
Lemma after_comma s q : s <> [] -> go Fresh s = Some q -> pass None s = Some (Some q).
Proof.
  destruct s as [|c s]; [congruence|]. intros _ H. unfold go, pass in *. cbn [run] in *. destruct (mem_cp text_alphabet c) eqn:Ec; [|discriminate].
  rewrite (proj2 (alphabet_no_comma c Ec)). destruct (move Fresh c) as [p|] eqn:Em; [|discriminate].
  assert (turn None c = Some (Some p)) as ->; [|apply go_pass, H]. unfold turn. destruct (N.eqb_spec c 32) as [->|]; [vm_compute in Em; discriminate|].
  change (operand all_letters c) with (move Fresh c). rewrite Em. reflexivity.
Qed.
Definition ends (q : option place) (s : pystr) : Prop := exists q', pass q s = Some (Some q') /\ In q' end_places.
Lemma end_has q : In q end_places -> has place place_eqb q end_places = true.
Proof. intro H. exact (proj2 (has_in place place_eqb place_eqb_ok q end_places) H). Qed.
Lemma at_comma q : In q end_places -> turn (Some q) 44 = Some None.
Proof. intro H. unfold turn. cbn [N.eqb Pos.eqb]. rewrite (end_has q H). reflexivity. Qed.

Section Gap.
Variable gap : pystr.
Hypothesis Hgap : gap = [] \/ gap = [32].
(** No letter that begins a unit after a comma and a space *)
Definition after_gap (e : arith) : Prop := gap = [] \/ unit_first e = false.
Definition item (e : arith) : Prop := wf e /\ printable e.

Lemma item_ends e : item e -> ends (Some Fresh) (body gap e).
Proof. intros [W P]. destruct (printable_finishes gap e Hgap W P) as (q & H & I). exists q. split; [apply go_pass, H|exact I]. Qed.
Lemma next_ends e : item e -> after_gap e -> ends None (gap ++ body gap e).
Proof.
  intros [W P] G. destruct (body_first gap e W) as (c & r & Eb & _). destruct Hgap as [E|E].
  - destruct (printable_finishes gap e Hgap W P) as (q & H & I). exists q. split; [|exact I]. rewrite E at 1. cbn [app]. apply after_comma; [rewrite Eb; discriminate|exact H].
  - assert (U : unit_first e = false) by (destruct G as [G|G]; [congruence|exact G]).
    assert (F : finishes Gap (body gap e)) by (apply run_body; auto; right; left; split; [left; reflexivity|exact U]).
    destruct F as (q & H & I). exists q. split; [|exact I]. rewrite E at 1. change (pass (Some Gap) (body gap e) = Some (Some q)). apply go_pass, H.
Qed.
Lemma ends_comma q s t : ends q s -> ends None t -> ends q (s ++ 44 :: t).
Proof.
  intros (p & H & I) (p' & H' & I'). exists p'. split; [|exact I']. rewrite pass_app, H. unfold pass. cbn [run].
  change (mem_cp seq_alphabet 44) with true. cbv iota. rewrite (at_comma p I). exact H'.
Qed.
Lemma items_from q e l : ends q (match q with None => gap ++ body gap e | Some _ => body gap e end) -> Forall item l -> Forall after_gap l ->
  ends q (match q with None => gap | Some _ => [] end ++ items gap (e :: l)).
Proof.
  revert q e. induction l as [|f l IH]; intros q e He Fi Fg.
  - unfold items. cbn [map join]. destruct q; exact He.
  - inversion Fi; inversion Fg; subst. unfold items. cbn [map]. change (join (44 :: gap) (body gap e :: body gap f :: map (body gap) l)) with (body gap e ++ (44 :: gap) ++ items gap (f :: l)).
    replace (match q with None => gap | Some _ => [] end ++ body gap e ++ (44 :: gap) ++ items gap (f :: l))
      with (match q with None => gap ++ body gap e | Some _ => body gap e end ++ 44 :: gap ++ items gap (f :: l)) by (destruct q; rewrite <- ?app_assoc; reflexivity).
    apply ends_comma; [exact He|]. apply (IH None f); auto. apply next_ends; assumption.
Qed.
Lemma items_ends e l : Forall item (e :: l) -> Forall after_gap l -> ends (Some Fresh) (items gap (e :: l)).
Proof. intros F G. inversion F; subst. apply (items_from (Some Fresh) e l); auto. apply item_ends; assumption. Qed.
Lemma wrap_ends k s : k <> KSet -> ends (Some Fresh) s -> ends (Some Fresh) (wrap k s).
Proof.
  intros Hk (q & H & I). exists Done. split; [|right; left; reflexivity]. unfold wrap.
  assert (T : forallb (fun q => forallb (fun c => match pass (Some q) [c] with Some p => spot_eqb p (Some Done) | None => false end) [41; 93]) end_places = true) by (vm_compute; reflexivity).
  rewrite forallb_forall in T. specialize (T q I). rewrite forallb_forall in T.
  assert (C : In (snd (pair_of k)) [41; 93]) by (destruct k; [right; left|left|congruence]; reflexivity). specialize (T _ C).
  change (fst (pair_of k) :: s ++ [snd (pair_of k)]) with ([fst (pair_of k)] ++ s ++ [snd (pair_of k)]).
  rewrite !pass_app. replace (pass (Some Fresh) [fst (pair_of k)]) with (Some (Some Fresh)) by (destruct k; [reflexivity|reflexivity|congruence]).
  rewrite pass_app, H. destruct (pass (Some q) [snd (pair_of k)]) as [p|]; [|discriminate]. apply spot_eqb_ok in T. congruence.
Qed.
Lemma around_ends k s : roundish k -> ends (Some Fresh) s -> ends (Some Fresh) (around k s).
Proof. intros Hk H. destruct k as [k|]; [|exact H]. apply wrap_ends; [intros ->; apply Hk; reflexivity|exact H]. Qed.
End Gap.

(** ** Spaces at the ends *)
Lemma fresh_spot : In (Some Fresh) spots.
Proof. right. apply in_map, fresh_place. Qed.
Lemma ends_readable s : ends (Some Fresh) s -> readable (option place) spots seq_alphabet turn s.
Proof. intros (q & H & _). exists (Some Fresh), (Some q). split; [exact fresh_spot|exact H]. Qed.
Definition seq_space_moves : bool :=
  forallb (fun c => if is_space c then match turn (Some Fresh) c with None => true | Some _ => false end &&
    forallb (fun q => match turn q c with Some (Some p) => negb (has place place_eqb p end_places) | _ => true end) spots else true) seq_alphabet.
Lemma seq_space_moves_ok : seq_space_moves = true.
Proof. vm_compute. reflexivity. Qed.
Lemma ends_strip s : ends (Some Fresh) s -> strip s = s.
Proof.
  intros (q & H & E). pose proof seq_space_moves_ok as T. unfold seq_space_moves in T. rewrite forallb_forall in T.
  apply strip_by_id.
  - destruct s as [|c s]; [exact I|]. destruct (is_space c) eqn:Ec; [|reflexivity]. exfalso. unfold pass in H. cbn [run] in H.
    destruct (mem_cp seq_alphabet c) eqn:M; [|discriminate]. specialize (T c (proj1 (mem_in _ _) M)). rewrite Ec in T.
    destruct (turn (Some Fresh) c); [discriminate T|discriminate H].
  - destruct (rev s) as [|c r] eqn:Er; [exact I|]. destruct (is_space c) eqn:Ec; [|reflexivity]. exfalso.
    assert (Es : s = rev r ++ [c]) by (rewrite <- (rev_involutive s), Er; reflexivity). rewrite Es, pass_app in H.
    destruct (pass (Some Fresh) (rev r)) as [p|] eqn:Ep; [|discriminate]. unfold pass in H. cbn [run] in H.
    destruct (mem_cp seq_alphabet c) eqn:M; [|discriminate]. specialize (T c (proj1 (mem_in _ _) M)). rewrite Ec in T.
    apply andb_true_iff in T. destruct T as [_ T]. rewrite forallb_forall in T.
    specialize (T p (run_states (option place) spot_eqb spot_eqb_ok spots seq_alphabet turn spots_closed _ _ _ fresh_spot Ep)).
    destruct (turn p c) as [p'|]; [|discriminate]. injection H as ->. rewrite (end_has q E) in T. discriminate.
Qed.
Lemma ends_no_brace s : ends (Some Fresh) s -> starts_with [123] s = false.
Proof.
  intros (q & H & _). destruct s as [|c s]; [reflexivity|]. cbn [starts_with]. destruct (N.eqb_spec 123 c) as [<-|]; [|reflexivity]. discriminate H.
Qed.

(** ** No thousands separators *)
Definition ends_digit (s : pystr) : bool := match rev s with c :: _ => is_digit c | [] => false end.
Definition three_digits (s : pystr) : bool := match s with a :: b :: c :: _ => is_digit a && is_digit b && is_digit c | _ => false end.
(** No element that ends in a digit is followed by one that begins with three digits. *)
Fixpoint apart (l : list pystr) : Prop :=
  match l with
  | x :: (y :: _) as r => ends_digit x && three_digits y = false /\ apart r
  | _ => True
  end.
Lemma comma_at x r a d t : ~ In 44 x -> x ++ 44 :: r = a ++ d :: 44 :: t -> (x = a ++ [d] /\ r = t) \/ (exists b, a = x ++ 44 :: b /\ r = b ++ d :: 44 :: t) \/ (d = 44 /\ x = a).
Proof.
  intros Hx E. destruct (app_eq_app _ _ _ _ E) as (w & [[E1 E2]|[E1 E2]]).
  - destruct w as [|y w].
    + cbn [app] in E2. injection E2 as -> E2. right; right. rewrite app_nil_r in E1. auto.
    + injection E2 as -> E2. destruct w as [|z w].
      * cbn [app] in E2. injection E2 as ->. left. auto.
      * injection E2 as <- _. exfalso. apply Hx. rewrite E1. apply in_or_app. right. right. left. reflexivity.
  - destruct w as [|y w].
    + cbn [app] in E2. injection E2 as <- <-. right; right. rewrite app_nil_r in E1. auto.
    + injection E2 as <- E2. right; left. exists w. auto.
Qed.
Lemma comma_not_digit : is_digit 44 = false.
Proof. reflexivity. Qed.
Definition stopper (z : pystr) : Prop := match z with c :: _ => is_digit c = false | [] => True end.
Lemma three_app y z : stopper z -> three_digits (y ++ z) = true -> three_digits y = true.
Proof.
  intros Hz H. destruct y as [|a [|b [|c y]]]; cbn [app] in *; destruct z as [|z1 [|z2 [|z3 z]]]; cbn in *; try discriminate; auto;
    rewrite ?Hz, ?andb_false_r in H; try discriminate; cbn in H; discriminate.
Qed.
Lemma apart_no_thousands l z : stopper z -> ~ In 44 z -> (forall x, In x l -> ~ In 44 x /\ x <> [] /\ ~ In 32 x) -> apart l -> ~ has_thousands (join [44] l ++ z).
Proof.
  intros Hz Cz. induction l as [|x l IH]; intros Hl Ap (a & d1 & sep & d2 & d3 & d4 & b & E & Hsep & F).
  - cbn [join app] in E. apply Cz. rewrite E. apply in_or_app. right. right. left. reflexivity.
  - destruct (Hl x (or_introl eq_refl)) as (Nx & Nn & Ns). destruct l as [|y l].
    + cbn [join] in E. assert (X : In 44 (x ++ z)) by (rewrite E; apply in_or_app; right; right; left; reflexivity).
      apply in_app_or in X. tauto.
    + change (join [44] (x :: y :: l)) with (x ++ 44 :: join [44] (y :: l)) in E. rewrite <- app_assoc in E. cbn [app] in E.
      rewrite !Forall_cons_iff in F. destruct F as (F1 & F2 & F3 & F4 & _).
      apply comma_at in E; [|exact Nx]. destruct E as [[E1 E2]|[(b' & _ & E2)|[-> _]]].
      * destruct Ap as [Ap _].
        assert (ends_digit x = true) as X1. { rewrite E1. unfold ends_digit. rewrite rev_app_distr. cbn. exact F1. }
        rewrite X1 in Ap. cbn [andb] in Ap. destruct (Hl y (or_intror (or_introl eq_refl))) as (Ny & Nny & Nsy).
        assert (Hst : exists z', join [44] (y :: l) ++ z = y ++ z' /\ stopper z').
        { destruct l as [|w l]; [exists z; split; [reflexivity|exact Hz]|]. exists (44 :: join [44] (w :: l) ++ z).
          change (join [44] (y :: w :: l)) with (y ++ 44 :: join [44] (w :: l)). rewrite <- app_assoc. split; reflexivity. }
        destruct Hst as (z' & Ez & Hz'). rewrite Ez in E2.
        destruct Hsep as [-> | ->].
        -- cbn [app] in E2. rewrite (three_app y z' Hz') in Ap; [discriminate|]. rewrite E2. unfold three_digits. rewrite F2, F3, F4. reflexivity.
        -- destruct y as [|c y]; [congruence|]. injection E2 as -> _. apply Nsy. left. reflexivity.
      * apply IH; [intros; apply Hl; right; assumption|apply Ap|]. exists b', d1, sep, d2, d3, d4, b. split; [exact E2|]. split; [exact Hsep|].
        repeat (constructor; [assumption|]). constructor.
      * discriminate F1.
Qed.
Lemma around_no_thousands k l : (forall x, In x l -> ~ In 44 x /\ x <> [] /\ ~ In 32 x) -> apart l -> ~ has_thousands (around k (join [44] l)).
Proof.
  intros Hl Ap. destruct k as [k|]; cbn [around].
  - unfold wrap. intros (a & d1 & sep & d2 & d3 & d4 & b & E & Hsep & F). destruct a as [|c a].
    + injection E as E _. rewrite Forall_cons_iff in F. destruct F as [F _]. rewrite <- E in F. destruct k; discriminate F.
    + injection E as _ E. apply (apart_no_thousands l [snd (pair_of k)]); auto; [destruct k; reflexivity|destruct k; intros [X|[]]; discriminate|].
      exists a, d1, sep, d2, d3, d4, b. auto.
  - rewrite <- (app_nil_r (join [44] l)). apply apart_no_thousands; auto; exact I.
Qed.

(** ** Normal form *)
Lemma tight_item e : wf e -> printable e -> ~ In 44 (tight e) /\ tight e <> [] /\ ~ In 32 (tight e) /\ strip (tight e) = tight e.
Proof.
  intros W P. pose proof (printable_finishes [] e (or_introl eq_refl) W P) as F. split; [apply no_comma_in, F|]. split; [|split].
  - destruct (body_first [] e W) as (c & r & E & _). unfold tight. rewrite E. discriminate.
  - rewrite <- (tight_tight e W), replace_single_del. intro H. apply filter_In in H. destruct H as [_ H]. discriminate.
  - apply finishes_strip, F.
Qed.
Lemma despace_items gap l : gap = [] \/ gap = [32] -> Forall wf l -> filter (fun x => negb (x =? 32)) (items gap l) = items [] l.
Proof.
  intros G. set (D := filter (fun x => negb (x =? 32))).
  assert (DB : forall e, wf e -> D (body gap e) = body [] e).
  { intros e W. unfold D. rewrite <- replace_single_del. destruct G as [-> | ->]; [apply tight_tight, W|apply tight_latex, W]. }
  induction l as [|e l IH]; intro F; [reflexivity|]. inversion F; subst. unfold items. destruct l as [|f l].
  - cbn [map join]. apply DB; assumption.
  - cbn [map]. change (D (body gap e ++ (44 :: gap) ++ items gap (f :: l)) = body [] e ++ 44 :: items [] (f :: l)).
    unfold D. rewrite !filter_app. fold D. rewrite DB, IH by assumption. f_equal. destruct G as [-> | ->]; reflexivity.
Qed.
Lemma lower_items l : Forall wf l -> lower (items [] l) = items [] (map low l).
Proof.
  induction l as [|e l IH]; intro F; [reflexivity|]. inversion F; subst. unfold items. destruct l as [|f l].
  - cbn [map join]. apply lower_body; auto.
  - cbn [map]. change (lower (body [] e ++ [44] ++ items [] (f :: l)) = body [] (low e) ++ [44] ++ items [] (map low (f :: l))).
    rewrite !lower_app, lower_body, IH by (assumption || (left; reflexivity)). reflexivity.
Qed.
Lemma around_map k f s : (forall a b, f (a ++ b) = f a ++ f b) -> (forall c, In c [40; 41; 91; 93; 123; 125] -> f [c] = [c]) -> f (around k s) = around k (f s).
Proof.
  intros Ha Hc. destruct k as [k|]; [|reflexivity]. cbn [around]. unfold wrap. change (fst (pair_of k) :: s ++ [snd (pair_of k)]) with ([fst (pair_of k)] ++ s ++ [snd (pair_of k)]).
  rewrite !Ha, !Hc by (destruct k; cbn; tauto). reflexivity.
Qed.
Lemma comma_bad : bad_cp 44.
Proof. apply bad_b_spec. vm_compute. reflexivity. Qed.
Lemma comma_in_items k e f l : In 44 (around k (items [] (e :: f :: l))).
Proof.
  assert (X : In 44 (items [] (e :: f :: l))) by (unfold items; cbn [map]; apply in_or_app; right; left; reflexivity).
  destruct k as [k|]; [|exact X]. right. apply in_or_app. left. exact X.
Qed.
Theorem sequence_normal ints k gap l : gap = [] \/ gap = [32] -> (2 <= length l)%nat -> roundish k -> Forall item l -> Forall wf (map low l) ->
  Forall (after_gap gap) (tl l) -> apart (map tight (map low l)) -> string_normalize ints (sequence k gap l) = NStr (sequence k [] (map low l)) /\ strip (sequence k gap l) = sequence k gap l.
Proof.
  intros G L R Fi Fl Fg Ap. destruct l as [|e [|f l]]; cbn [length] in L; try lia.
  assert (Fw : Forall wf (e :: f :: l)) by (eapply Forall_impl; [|exact Fi]; intros a [X _]; exact X).
  pose proof (around_ends k _ R (items_ends gap G e (f :: l) Fi Fg)) as F. fold (sequence k gap (e :: f :: l)) in F.
  split; [|apply ends_strip, F].
  assert (E : lower (replace [32] [] (sequence k gap (e :: f :: l))) = sequence k [] (map low (e :: f :: l))).
  { rewrite replace_single_del. unfold sequence. rewrite (around_map k (filter _)), (around_map k lower), despace_items, lower_items; auto using lower_app, filter_app.
    - intros c Hc. cbn in Hc. intuition (subst; reflexivity).
    - intros c Hc. cbn in Hc. intuition (subst; reflexivity). }
  rewrite <- E. apply (un_normalizes (option place) spot_eqb spot_eqb_ok spots seq_alphabet turn spots_closed seq_undisturbed).
  - apply ends_readable, F.
  - apply ends_strip, F.
  - apply ends_no_brace, F.
  - apply (bad_float 44 _ comma_bad). unfold sequence. unfold items. cbn [map].
    assert (X : In 44 (join (44 :: gap) (body gap e :: body gap f :: map (body gap) l))) by (apply in_or_app; right; left; reflexivity).
    destruct k as [k|]; [|exact X]. right. apply in_or_app. left. exact X.
  - rewrite E. unfold str_is_int. unfold sequence. change (items [] (map low (e :: f :: l))) with (join [44] (map tight (map low (e :: f :: l)))). rewrite strip_commas_id.
    + rewrite (bad_float 44 _ comma_bad); [reflexivity|]. apply (comma_in_items k (low e) (low f) (map low l)).
    + apply around_no_thousands; [|exact Ap]. intros x Hx. apply in_map_iff in Hx. destruct Hx as (y & <- & Hy).
      rewrite Forall_forall in Fl. specialize (Fl y Hy). apply in_map_iff in Hy. destruct Hy as (z & <- & Hz). rewrite Forall_forall in Fi.
      destruct (tight_item (low z) Fl (plain_printable _ (printable_low z (proj2 (Fi z Hz))))) as (X1 & X2 & X3 & _). auto.
Qed.

(** ** Cutting at the commas *)
Definition flat (s : pystr) : Prop := forall c, In c s -> is_open c = false /\ is_close c = false.
Lemma flat_nested s : flat s -> well_nested s.
Proof.
  intro H. split; [apply atomic_balance, H|]. intros p q ->. rewrite atomic_balance; [lia|]. intros c Hc. apply H, in_or_app. left. exact Hc.
Qed.
Definition flat_b (s : pystr) : bool := forallb (fun c => negb (is_open c) && negb (is_close c)) s.
Lemma flat_ok s : flat_b s = true -> flat s.
Proof. unfold flat_b. rewrite forallb_forall. intros H c Hc. specialize (H c Hc). apply andb_true_iff in H. rewrite !negb_true_iff in H. exact H. Qed.
Lemma wrap_nested k s : well_nested s -> well_nested (wrap k s).
Proof.
  intros [B N]. unfold wrap. destruct (balance_pair k) as [B1 B2]. split; [rewrite balance_cons, balance_app, B1, B2, B; reflexivity|].
  intros p q E. destruct p as [|c p]; [cbn; lia|]. injection E as <- E. rewrite balance_cons, B1.
  destruct (app_eq_app _ _ _ _ E) as (r & [[Er _]|[Er Eb]]); [specialize (N p r Er); lia|].
  destruct r as [|d r]; [rewrite Er, app_nil_r, B; lia|]. destruct r as [|? ?]; [|discriminate]. injection Eb as <- _. rewrite Er, balance_app, B, B2. lia.
Qed.
Lemma group_nested k w s r : flat w -> well_nested s -> well_nested r -> well_nested (w ++ [fst (pair_of k)] ++ s ++ [snd (pair_of k)] ++ r).
Proof.
  intros Hw Hs Hr. replace (w ++ [fst (pair_of k)] ++ s ++ [snd (pair_of k)] ++ r) with (w ++ wrap k s ++ r) by (unfold wrap; cbn [app]; rewrite <- app_assoc; reflexivity).
  apply well_nested_app; [apply flat_nested, Hw|]. apply well_nested_app; [apply wrap_nested, Hs|exact Hr].
Qed.
Lemma numeral_flat ds : numeral ds -> flat ds.
Proof.
  intros [F _] c Hc. rewrite Forall_forall in F. specialize (F c Hc). unfold ascii_digit in F. unfold is_open, is_close.
  repeat match goal with |- context [c =? ?n] => destruct (N.eqb_spec c n); [lia|] end. split; reflexivity.
Qed.
Lemma sym_flat x : In x symbols -> flat x.
Proof. assert (T : forallb flat_b symbols = true) by (vm_compute; reflexivity). rewrite forallb_forall in T. intro H. apply flat_ok, T, H. Qed.
Lemma fn_flat x : In x functions -> flat (u "\" ++ x).
Proof. assert (T : forallb (fun x => flat_b (u "\" ++ x)) functions = true) by (vm_compute; reflexivity). rewrite forallb_forall in T. intro H. apply flat_ok, T, H. Qed.
Lemma body_nested gap e : gap = [] \/ gap = [32] -> wf e -> well_nested (body gap e).
Proof.
  intro G. assert (FG : flat gap) by (destruct G as [-> | ->]; apply flat_ok; reflexivity).
  assert (FL : forall w s, flat_b w = true -> well_nested s -> well_nested (w ++ s)) by (intros w s H Hs; apply well_nested_app; [apply flat_nested, flat_ok, H|exact Hs]).
  assert (LV : forall l e, well_nested (body gap e) -> well_nested (level gap l e)) by (intros l e0 H; unfold level; destruct (Nat.leb _ _); [exact H|apply (wrap_nested KTuple), H]).
  assert (GR : forall k w s r, flat_b w = true -> well_nested s -> well_nested r -> well_nested (w ++ [fst (pair_of k)] ++ s ++ [snd (pair_of k)] ++ r)) by (intros; apply group_nested; auto using flat_ok).
  assert (NL := well_nested_nil).
  induction e; intro W; cbn [wf] in W.
  - apply flat_nested, numeral_flat, W.
  - cbn [body]. apply well_nested_app; [apply flat_nested, numeral_flat, W|]. apply FL; [reflexivity|]. apply flat_nested, numeral_flat, W.
  - cbn [body]. apply well_nested_app; [apply flat_nested, numeral_flat, W|]. apply flat_nested, flat_ok. reflexivity.
  - apply flat_nested, sym_flat, W.
  - apply flat_nested, flat_ok. reflexivity.
  - change (well_nested (level gap (op_prec o) e1 ++ op_latex gap o ++ level gap (S (op_prec o)) e2)).
    apply well_nested_app; [apply LV, IHe1, W|]. apply well_nested_app; [|apply LV, IHe2, W]. apply flat_nested, flat_ok. destruct G as [-> | ->]; destruct o; reflexivity.
  - change (well_nested (u "-" ++ level gap 3 e)). apply FL; [reflexivity|apply LV, IHe, W].
  - change (well_nested (ds ++ (if digit_first (level gap 4 e) then parens (body gap e) else level gap 4 e))).
    apply well_nested_app; [apply flat_nested, numeral_flat, W|]. destruct (digit_first _); [apply (wrap_nested KTuple), IHe, W|apply LV, IHe, W].
  - change (well_nested (level gap 4 e ++ u "!")). apply well_nested_app; [apply LV, IHe, W|apply flat_nested, flat_ok; reflexivity].
  - change (well_nested (level gap 6 e1 ++ u "^{" ++ body gap e2 ++ u "}")). apply well_nested_app; [apply LV, IHe1, W|].
    apply (GR KSet (u "^") (body gap e2) []); [reflexivity|apply IHe2, W|exact NL].
  - apply (GR KSet (u "e^") (body gap e) []); [reflexivity|apply IHe, W|exact NL].
  - apply (GR KSet (u "\frac") (body gap e1) ([] ++ [fst (pair_of KSet)] ++ body gap e2 ++ [snd (pair_of KSet)] ++ [])); [reflexivity|apply IHe1, W|].
    apply (GR KSet [] (body gap e2) []); [reflexivity|apply IHe2, W|exact NL].
  - apply (GR KSet (u "\binom") (body gap e1) ([] ++ [fst (pair_of KSet)] ++ body gap e2 ++ [snd (pair_of KSet)] ++ [])); [reflexivity|apply IHe1, W|].
    apply (GR KSet [] (body gap e2) []); [reflexivity|apply IHe2, W|exact NL].
  - apply (GR KSet (u "\sqrt") (body gap e) []); [reflexivity|apply IHe, W|exact NL].
  - apply (GR KList (u "\sqrt") (body gap e1) ([] ++ [fst (pair_of KSet)] ++ body gap e2 ++ [snd (pair_of KSet)] ++ [])); [reflexivity|apply IHe1, W|].
    apply (GR KSet [] (body gap e2) []); [reflexivity|apply IHe2, W|exact NL].
  - apply (FL (u "\left|")); [reflexivity|]. apply well_nested_app; [apply IHe, W|apply flat_nested, flat_ok; reflexivity].
  - apply (FL (u "\lfloor")); [reflexivity|]. apply well_nested_app; [apply flat_nested, FG|]. apply well_nested_app; [apply IHe, W|apply flat_nested, flat_ok; reflexivity].
  - apply (FL (u "\lceil")); [reflexivity|]. apply well_nested_app; [apply flat_nested, FG|]. apply well_nested_app; [apply IHe, W|apply flat_nested, flat_ok; reflexivity].
  - apply (group_nested KTuple (u "\" ++ f) (body gap e) []); [apply fn_flat, W|apply IHe, W|exact NL].
  - apply (wrap_nested KTuple), IHe, W.
  - rewrite body_juxt. apply well_nested_app; [destruct (_ || _ || _); [apply (wrap_nested KTuple), IHe1, W|apply LV, IHe1, W]|].
    apply well_nested_app; [apply flat_nested, FG|]. unfold right_level. destruct (digit_first _); [apply (wrap_nested KTuple), IHe2, W|apply LV, IHe2, W].
Qed.
Definition bracket_kind (k : option kind) : kind := match k with Some k => k | None => KSet end.
Lemma last_in {A} (l : list A) d : l <> [] -> In (last l d) l.
Proof. induction l as [|x l IH]; [congruence|]. intros _. destruct l as [|y l]; [left; reflexivity|right; apply IH; discriminate]. Qed.
Theorem sequence_split k l : (2 <= length l)%nat -> Forall item l -> apart (map tight l) -> split_tuple (sequence k [] l) None = Ret (SSeq (bracket_kind k) (map tight l)).
Proof.
  intros L F Ap. rewrite Forall_forall in F.
  assert (X : forall x, In x (map tight l) -> ~ In 44 x /\ x <> [] /\ ~ In 32 x /\ strip x = x /\ well_nested x).
  { intros x Hx. apply in_map_iff in Hx. destruct Hx as (e & <- & He). destruct (F e He) as [W P]. destruct (tight_item e W P) as (X1 & X2 & X3 & X4).
    repeat (split; [assumption|]). apply body_nested; auto. }
  assert (M : map strip (map tight l) = map tight l).
  { transitivity (map (fun x => x) (map tight l)); [apply map_ext_in; intros x Hx; apply X, Hx|apply map_id]. }
  assert (NT : ~ has_thousands (around k (join [44] (map tight l)))).
  { apply around_no_thousands; [|exact Ap]. intros x Hx. destruct (X x Hx) as (X1 & X2 & X3 & _). auto. }
  assert (La : last (map tight l) [] <> []).
  { assert (map tight l <> []) by (destruct l; [cbn in L; lia|discriminate]). apply X, last_in. assumption. }
  assert (TC : forall x, In x (map tight l) -> ~ top_comma x).
  { intros x Hx (p & q & -> & _). apply (proj1 (X _ Hx)). apply in_or_app. right. left. reflexivity. }
  unfold sequence. change (items [] l) with (join [44] (map tight l)). destruct k as [k|]; cbn [around bracket_kind] in *.
  - rewrite split_tuple_wrapped; [rewrite M; reflexivity|rewrite map_length; exact L| |exact TC|exact La|exact NT].
    apply Forall_forall. intros x Hx. apply X, Hx.
  - rewrite split_tuple_bare; [rewrite M; reflexivity|rewrite map_length; exact L| |exact TC|exact La|exact NT].
    apply Forall_forall. intros x Hx. apply X, Hx.
Qed.
Lemma sequence_no_matrix k gap l : gap = [] \/ gap = [32] -> l <> [] -> roundish k -> Forall item l -> Forall (after_gap gap) (tl l) ->
  str_is_mat (sequence k gap l) = false /\ contains (u "\cup") (sequence k gap l) = false /\ contains (u "\cap") (sequence k gap l) = false.
Proof.
  intros G L R F A. destruct l as [|e l]; [congruence|]. pose proof (around_ends k _ R (items_ends gap G e l F A)) as E. fold (sequence k gap (e :: l)) in E.
  pose proof seq_no_words as T. cbn [forallb] in T. rewrite !andb_true_iff in T. destruct T as (T1 & T2 & T3 & _).
  split; [|split]; (eapply dead_contains; [exact spot_eqb_ok|exact spots_closed|eassumption|apply ends_readable, E]).
Qed.
