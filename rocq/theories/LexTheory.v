(** The lexer cuts a text into consecutive longest matches. *)
From Coq Require Import String List PeanoNat NArith Bool Lia.
From Verif Require Import PyStr PyStrTheory Regex RegexTheory Normalize Lexer.
Import ListNotations.
Local Open Scope N_scope.

(** ** Patterns without look-around match every word of their language *)
Fixpoint looks (r : regex) : bool :=
  match r with
  | REps | RChr _ => false
  | RSeq a b | RAlt a b => looks a || looks b
  | RStar _ a | RGrp _ a => looks a
  | RBol | REol | RAhead _ _ | RBehind _ _ => true
  end.
Definition full (m : mst -> list mst) (L : pystr -> Prop) : Prop :=
  forall w pre s cs, L w -> exists cs', In (MSt (rev w ++ pre) s cs') (m (MSt pre (w ++ s) cs)).
Lemma star_full m L g : full m L -> forall w, star_l L w -> forall f pre s cs, (List.length w <= f)%nat ->
  exists cs', In (MSt (rev w ++ pre) s cs') (star_matches m g f (MSt pre (w ++ s) cs)).
Proof.
  intros F w Hw. induction Hw as [|w v Nw Lw Hv IH]; intros f pre s cs Lf.
  - exists cs. destruct f; [left; reflexivity|]. cbn [star_matches rev app]. destruct g; [apply in_or_app; right; left; reflexivity|left; reflexivity].
  - rewrite app_length in Lf. assert (0 < List.length w)%nat by (destruct w; [congruence|cbn; lia]). destruct f as [|f]; [lia|].
    rewrite <- app_assoc. destruct (F w pre (v ++ s) cs Lw) as [c1 H1]. destruct (IH f (rev w ++ pre) s c1 ltac:(lia)) as [c2 H2].
    exists c2. rewrite rev_app_distr, <- app_assoc. cbn [star_matches].
    assert (G : In (MSt (rev v ++ rev w ++ pre) s c2) (flat_map (star_matches m g f)
      (filter (fun st' => Nat.ltb (List.length (after st')) (List.length (after (MSt pre (w ++ v ++ s) cs)))) (m (MSt pre (w ++ v ++ s) cs))))).
    { apply in_flat_map. exists (MSt (rev w ++ pre) (v ++ s) c1). split; [|exact H2]. apply filter_In. split; [exact H1|].
      apply Nat.ltb_lt. cbn [after]. rewrite (app_length w). lia. }
    destruct g; [apply in_or_app; left; exact G|right; exact G].
Qed.
Lemma matches_full r : looks r = false -> full (matches r) (den r).
Proof.
  induction r as [|k|a IHa b IHb|a IHa b IHb|g a IHa|n a IHa| | |p k|p k]; cbn [looks]; intro L; try discriminate; intros w pre s cs D; cbn [den] in D.
  - subst. exists cs. left. reflexivity.
  - destruct D as (c & -> & E). exists cs. cbn. rewrite E. left. reflexivity.
  - apply orb_false_iff in L. destruct L as [La Lb]. destruct D as (w1 & w2 & -> & D1 & D2).
    destruct (IHa La w1 pre (w2 ++ s) cs D1) as [c1 H1]. destruct (IHb Lb w2 (rev w1 ++ pre) s c1 D2) as [c2 H2].
    exists c2. cbn [matches]. apply in_flat_map. rewrite <- app_assoc, rev_app_distr, <- app_assoc. eauto.
  - apply orb_false_iff in L. destruct L as [La Lb]. cbn [matches]. destruct D as [D|D].
    + destruct (IHa La w pre s cs D) as [c1 H1]. exists c1. apply in_or_app. auto.
    + destruct (IHb Lb w pre s cs D) as [c1 H1]. exists c1. apply in_or_app. auto.
  - cbn [matches]. apply (star_full _ (den a)); [apply IHa, L|exact D|]. cbn [after]. rewrite app_length. lia.
  - destruct (IHa L w pre s cs D) as [c1 H1]. eexists. cbn [matches]. apply in_map_iff. eexists. split; [|exact H1]. reflexivity.
Qed.

(** ** The texts of a rule *)
Definition spells (r : lrule) (w : pystr) : Prop :=
  match r with
  | Lits l => In w l
  | Chars k => exists c, w = [c] /\ cls_in k c = true
  | Pat p => den p w
  end.
(** The rule matches a piece of [s] of length n and nothing longer; 0 also for no match *)
Lemma fold_max {A} (f : A -> nat) l m : (m <= fold_left (fun m x => Nat.max m (f x)) l m)%nat /\
  (forall x, In x l -> (f x <= fold_left (fun m x => Nat.max m (f x)) l m)%nat) /\
  (fold_left (fun m x => Nat.max m (f x)) l m = m \/ exists x, In x l /\ fold_left (fun m x => Nat.max m (f x)) l m = f x).
Proof.
  revert m. induction l as [|x l IH]; intro m; cbn [fold_left]; [repeat split; [lia|intros x []|left; reflexivity]|].
  destruct (IH (Nat.max m (f x))) as (H1 & H2 & H3). split; [lia|]. split.
  - intros y [->|Hy]; [lia|apply H2, Hy].
  - destruct H3 as [H3|(y & Hy & H3)]; [|right; exists y; split; [right; exact Hy|exact H3]].
    destruct (Nat.max_spec m (f x)) as [[_ E]|[_ E]]; rewrite E in *; [right; exists x; split; [left; reflexivity|exact H3]|left; exact H3].
Qed.
Lemma fold_filter {A} (p : A -> bool) (f : A -> nat) l m :
  fold_left (fun m x => if p x then Nat.max m (f x) else m) l m = fold_left (fun m x => Nat.max m (f x)) (filter p l) m.
Proof. revert m. induction l as [|x l IH]; intro m; cbn [fold_left filter]; [reflexivity|]. destruct (p x); cbn [fold_left]; apply IH. Qed.
Definition lookless (r : lrule) : bool := match r with Pat p => negb (looks p) | _ => true end.
Lemma rules_lookless : forallb (fun kr => lookless (snd kr)) rules = true.
Proof. vm_compute. reflexivity. Qed.
Lemma rule_longest r s w rest : lookless r = true -> s = w ++ rest -> spells r w -> (List.length w <= rule_len r s)%nat.
Proof.
  intros Ll -> H. destruct r as [l|k|p]; cbn [rule_len spells lookless] in *.
  - unfold lits_len. rewrite fold_filter. apply (fold_max (fun x : pystr => List.length x)). apply filter_In. split; [exact H|].
    clear H. induction w as [|c w IH]; [reflexivity|]. cbn. rewrite N.eqb_refl. exact IH.
  - destruct H as (c & -> & E). cbn [app]. rewrite E. cbn. lia.
  - apply negb_true_iff in Ll. destruct (matches_full p Ll w [] rest [] H) as [cs Hin]. rewrite app_nil_r in Hin.
    pose proof (proj1 (proj2 (fold_max (fun st => List.length (before st)) (matches p (MSt [] (w ++ rest) [])) 0)) _ Hin) as G.
    cbn [before] in G. rewrite rev_length in G. exact G.
Qed.
Lemma rule_found r s : rule_len r s <> 0%nat -> exists w rest, s = w ++ rest /\ spells r w /\ List.length w = rule_len r s.
Proof.
  intro N. destruct r as [l|k|p]; cbn [rule_len spells] in *.
  - unfold lits_len in *. rewrite fold_filter in *. destruct (proj2 (proj2 (fold_max (fun x : pystr => List.length x) (filter (fun x => starts_with x s) l) 0))) as [E|(x & Hx & E)]; [congruence|].
    apply filter_In in Hx. destruct Hx as [Hx St]. apply starts_with_spec in St. destruct St as [t ->]. exists x, t. auto.
  - destruct s as [|c s]; [congruence|]. destruct (cls_in k c) eqn:E; [|congruence]. exists [c], s. repeat split. exists c; auto.
  - destruct (proj2 (proj2 (fold_max (fun st => List.length (before st)) (matches p (MSt [] s [])) 0))) as [E|(st & Hst & E)]; [congruence|].
    apply matches_sound in Hst. destruct Hst as (w & [C1 C2] & D & _). cbn [after before] in *. exists w, (after st). split; [exact C1|]. split; [exact D|].
    rewrite E, C2, app_nil_r, rev_length. reflexivity.
Qed.
(** The winner: no rule matches more, no earlier rule as much *)
Definition wins (l : list (N * lrule)) (s : pystr) (k : N) (m : nat) : Prop :=
  exists l1 r l2, l = l1 ++ (k, r) :: l2 /\ rule_len r s = m /\
    (forall k' r', In (k', r') l1 -> (rule_len r' s < m)%nat) /\ (forall k' r', In (k', r') l2 -> (rule_len r' s <= m)%nat).
Lemma best_wins l s : forall k m k' m', best l s k m = (k', m') ->
  (k' = k /\ m' = m /\ (forall k1 r1, In (k1, r1) l -> (rule_len r1 s <= m)%nat)) \/ ((m < m')%nat /\ wins l s k' m').
Proof.
  induction l as [|[k0 r0] l IH]; intros k m k' m' H; cbn [best] in H.
  - injection H as <- <-. left. repeat split. intros k1 r1 [].
  - destruct (Nat.ltb_spec m (rule_len r0 s)) as [L|L].
    + destruct (IH _ _ _ _ H) as [(-> & -> & A)|(L' & l1 & r & l2 & -> & E & A & B)].
      * right. split; [exact L|]. exists [], r0, l. repeat split; [intros ? ? []|exact A].
      * right. split; [lia|]. exists ((k0, r0) :: l1), r, l2. repeat split; [exact E| |exact B].
        intros k1 r1 [[= -> ->]|Hin]; [lia|eapply A; exact Hin].
    + destruct (IH _ _ _ _ H) as [(-> & -> & A)|(L' & l1 & r & l2 & -> & E & A & B)].
      * left. repeat split. intros k1 r1 [[= -> ->]|Hin]; [lia|eapply A; exact Hin].
      * right. split; [exact L'|]. exists ((k0, r0) :: l1), r, l2. repeat split; [exact E| |exact B].
        intros k1 r1 [[= -> ->]|Hin]; [lia|eapply A; exact Hin].
Qed.
(** In terms of texts: [w] begins [s], belongs to rule k, and no other rule could do better *)
Definition longest (s : pystr) (k : N) (w : pystr) : Prop :=
  w <> [] /\ (exists rest, s = w ++ rest) /\
  exists l1 r l2, rules = l1 ++ (k, r) :: l2 /\ spells r w /\
    (forall k' r' w' rest', In (k', r') l1 -> s = w' ++ rest' -> spells r' w' -> (List.length w' < List.length w)%nat) /\
    (forall k' r' w' rest', In (k', r') ((k, r) :: l2) -> s = w' ++ rest' -> spells r' w' -> (List.length w' <= List.length w)%nat).
Lemma same_length {A} (a b c d : list A) : a ++ b = c ++ d -> List.length a = List.length c -> a = c /\ b = d.
Proof.
  revert c. induction a as [|x a IH]; intros [|y c] E L; cbn in *; try discriminate; [auto|].
  injection E as -> E. injection L as L. destruct (IH c E L) as [-> ->]. auto.
Qed.
Lemma lex_one_longest s k m : lex_one s = Some (k, m) -> longest s k (firstn m s) /\ (0 < m)%nat /\ (m <= List.length s)%nat.
Proof.
  unfold lex_one. destruct (best rules s 0 0) as [k' m'] eqn:B. destruct m' as [|m']; [discriminate|]. intros [= -> <-].
  destruct (best_wins _ _ _ _ _ _ B) as [(_ & ? & _)|(_ & l1 & r & l2 & E & Lr & A & C)]; [lia|].
  destruct (rule_found r s ltac:(lia)) as (w & rest & Es & Sp & Lw).
  pose proof rules_lookless as LL. rewrite forallb_forall in LL.
  assert (Ef : firstn (S m') s = w) by (rewrite Es, <- Lr, <- Lw, firstn_app, firstn_all, Nat.sub_diag, app_nil_r; reflexivity).
  split; [|split; [lia|rewrite Es, app_length; lia]].
  rewrite Ef. split; [intros ->; cbn in Lw; lia|]. split; [exists rest; exact Es|]. exists l1, r, l2. split; [exact E|]. split; [exact Sp|]. split.
  - intros k1 r1 w1 rest1 Hin E1 S1. assert (lookless r1 = true) by (apply (LL (k1, r1)); rewrite E; apply in_or_app; left; exact Hin).
    pose proof (rule_longest r1 s w1 rest1 ltac:(assumption) E1 S1). specialize (A _ _ Hin). lia.
  - intros k1 r1 w1 rest1 Hin E1 S1. assert (lookless r1 = true) by (apply (LL (k1, r1)); rewrite E; apply in_or_app; right; exact Hin).
    pose proof (rule_longest r1 s w1 rest1 ltac:(assumption) E1 S1). destruct Hin as [[= <- <-]|Hin]; [lia|]. specialize (C _ _ Hin). lia.
Qed.

Lemma lex_one_none s : lex_one s = None -> forall k r w rest, In (k, r) rules -> s = w ++ rest -> spells r w -> w = [].
Proof.
  unfold lex_one. destruct (best rules s 0 0) as [k' m'] eqn:B. destruct m' as [|m']; [|discriminate]. intros _ k r w rest Hin E Sp.
  destruct (best_wins _ _ _ _ _ _ B) as [(_ & _ & A)|(L & _)]; [|lia]. pose proof rules_lookless as LL. rewrite forallb_forall in LL.
  pose proof (rule_longest r s w rest (LL _ Hin) E Sp) as H. specialize (A _ _ Hin). clear - H A. destruct w as [|x w]; [reflexivity|cbn [List.length] in H; lia].
Qed.

(** ** Whole texts *)
(** Skipped text: blanks, tabs, ends of line, and \$ *)
Inductive skippable : pystr -> Prop :=
| sk_nil : skippable []
| sk_blank c s : In c [32; 9; 13; 10] -> skippable s -> skippable (c :: s)
| sk_dollar s : skippable s -> skippable (92 :: 36 :: s).
(** [s] is cut into the tokens, each longest at its place, and skipped text *)
Inductive cut : pystr -> list token -> Prop :=
| cut_end s : skippable s -> cut s []
| cut_tok k w pre s ts : skippable pre -> skipped k = false -> longest (w ++ s) k w -> cut s ts -> cut (pre ++ w ++ s) (Tok k w pre :: ts).
Lemma skippable_app a b : skippable a -> skippable b -> skippable (a ++ b).
Proof. intros Ha Hb. induction Ha; cbn [app]; [exact Hb|constructor; assumption|constructor; assumption]. Qed.
Lemma skip_rules : Forall (fun kr => skipped (fst kr) = true -> snd kr = Pat (RPlus (RChr ws_char)) \/ snd kr = Lits [u "\$"]) rules.
Proof. unfold rules. repeat (apply Forall_cons; [cbn [fst snd]; intro H; first [discriminate H|left; reflexivity|right; reflexivity]|]). apply Forall_nil. Qed.
Lemma ws_in c : cls_in ws_char c = true -> In c [32; 9; 13; 10].
Proof. cbn [cls_in ws_char]. rewrite !orb_true_iff, !N.eqb_eq. cbn [In]. tauto. Qed.
Lemma skipped_text k s w : skipped k = true -> longest s k w -> skippable w.
Proof.
  intros Hk (_ & _ & l1 & r & l2 & E & Sp & _). pose proof skip_rules as T. rewrite Forall_forall in T.
  specialize (T (k, r)). rewrite E in T. destruct (T (in_elt _ _ _) Hk) as [Er|Er]; cbn [snd] in Er; subst r; cbn [spells den RPlus] in Sp.
  - destruct Sp as (w1 & w2 & -> & (c & -> & Hc) & Hs). cbn [app]. apply sk_blank; [apply ws_in, Hc|].
    induction Hs as [|w v Nw (c' & -> & Hc') Hv IH]; [constructor|]. cbn [app]. apply sk_blank; [apply ws_in, Hc'|exact IH].
  - destruct Sp as [<-|[]]. apply (sk_dollar []). constructor.
Qed.
Local Opaque lex_one rules.
Lemma lex_go_cut n : forall pre s ts, skippable pre -> lex_go n pre s = Some ts -> cut (pre ++ s) ts.
Proof.
  induction n as [|n IH]; intros pre [|c s] ts Hp H; cbn [lex_go] in H; try discriminate; try (injection H as <-; rewrite app_nil_r; apply cut_end, Hp).
  destruct (lex_one (c :: s)) as [[k m]|] eqn:E; [|discriminate]. destruct (lex_one_longest _ _ _ E) as (L & M & M').
  destruct (skipped k) eqn:Sk.
  - rewrite <- (firstn_skipn m (c :: s)), app_assoc. apply IH; [|exact H]. apply skippable_app; [exact Hp|]. apply (skipped_text k (c :: s)); assumption.
  - destruct (lex_go n [] (skipn m (c :: s))) as [l|] eqn:El; [|discriminate]. injection H as <-.
    rewrite <- (firstn_skipn m (c :: s)) at 1. apply cut_tok; [exact Hp|exact Sk|rewrite firstn_skipn; exact L|]. apply (IH [] _ l); [constructor|exact El].
Qed.
Theorem lex_cut s ts : lex s = Some ts -> cut s ts.
Proof. intro H. apply (lex_go_cut (List.length s) [] s ts); [constructor|exact H]. Qed.
(** At most one way *)
Lemma longest_unique s k w k' w' : longest s k w -> longest s k' w' -> k = k' /\ w = w'.
Proof.
  intros (_ & (r1 & E1) & l1 & ru & l2 & E & Sp & A & B) (_ & (r1' & E1') & l1' & ru' & l2' & E' & Sp' & A' & B').
  assert (Hin : In (k, ru) rules) by (rewrite E; apply in_elt). assert (Hin' : In (k', ru') rules) by (rewrite E'; apply in_elt).
  rewrite E' in Hin. rewrite E in Hin'. rewrite E in E'.
  assert (L : List.length w = List.length w' /\ (forall x, l1 <> l1' ++ (k', ru') :: x) /\ (forall x, l1' <> l1 ++ (k, ru) :: x)).
  { assert (G : (List.length w <= List.length w')%nat).
    { apply in_app_or in Hin. destruct Hin as [Hin|Hin]; [pose proof (A' _ _ _ _ Hin E1 Sp); lia|apply (B' _ _ _ _ Hin E1 Sp)]. }
    assert (G' : (List.length w' <= List.length w)%nat).
    { apply in_app_or in Hin'. destruct Hin' as [Hin'|Hin']; [pose proof (A _ _ _ _ Hin' E1' Sp'); lia|apply (B _ _ _ _ Hin' E1' Sp')]. }
    split; [lia|]. split; intros x Ex.
    - assert (Hx : In (k', ru') l1) by (rewrite Ex; apply in_elt). pose proof (A _ _ _ _ Hx E1' Sp'). lia.
    - assert (Hx : In (k, ru) l1') by (rewrite Ex; apply in_elt). pose proof (A' _ _ _ _ Hx E1 Sp). lia. }
  destruct L as (L & N1 & N2). split.
  - assert (G : forall (a b c d : list (N * lrule)) x y, a ++ x :: b = c ++ y :: d -> (forall z, a <> c ++ y :: z) -> (forall z, c <> a ++ x :: z) -> x = y).
    { induction a as [|p a IH]; intros b [|q c] d x y G Ga Gc; cbn in G; injection G as G0 G.
      - exact G0.
      - exfalso. apply (Gc c). cbn. congruence.
      - exfalso. apply (Ga a). cbn. congruence.
      - apply (IH b c d x y G); intros z Ez; [apply (Ga z)|apply (Gc z)]; cbn; congruence. }
    pose proof (G _ _ _ _ _ _ E' N1 N2) as Ek. congruence.
  - rewrite E1 in E1'. apply (same_length _ _ _ _ E1' L).
Qed.
(** A text without tokens is stuck: after some tokens no rule matches *)
Lemma lex_go_stuck n : forall pre s, (List.length s <= n)%nat -> lex_go n pre s = None ->
  exists a b, s = a ++ b /\ b <> [] /\ forall k r w rest, In (k, r) rules -> b = w ++ rest -> spells r w -> w = [].
Proof.
  induction n as [|n IH]; intros pre [|c s] L H; cbn [lex_go] in H; try discriminate; [cbn in L; lia|].
  destruct (lex_one (c :: s)) as [[k m]|] eqn:E.
  - destruct (lex_one_longest _ _ _ E) as (_ & M & M').
    assert (Ls : (List.length (skipn m (c :: s)) <= n)%nat) by (rewrite skipn_length; cbn [List.length] in *; lia).
    assert (G : exists p, lex_go n p (skipn m (c :: s)) = None).
    { destruct (skipped k); [eexists; exact H|]. destruct (lex_go n [] (skipn m (c :: s))) as [l|] eqn:El; [discriminate|]. eexists; exact El. }
    destruct G as [p G]. destruct (IH p _ Ls G) as (a & b & Eb & Nb & F). exists (firstn m (c :: s) ++ a), b. split; [|auto].
    rewrite <- app_assoc, <- Eb. symmetry. apply firstn_skipn.
  - exists [], (c :: s). split; [reflexivity|]. split; [discriminate|]. apply lex_one_none, E.
Qed.
Theorem lex_stuck s : lex s = None -> exists a b, s = a ++ b /\ b <> [] /\ forall k r w rest, In (k, r) rules -> b = w ++ rest -> spells r w -> w = [].
Proof. apply lex_go_stuck. lia. Qed.
