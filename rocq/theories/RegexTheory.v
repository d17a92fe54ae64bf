(** Facts about the regex engine of Regex.v. *)
From Coq Require Import List Arith NArith Bool Lia.
From Verif Require Import PyStr PyStrTheory Regex.
Import ListNotations.
Local Open Scope N_scope.

(** ** What a match consumes *)

(** [st'] is reached from [st] by consuming [w]. *)
Definition consumes (st : mst) (w : pystr) (st' : mst) : Prop :=
  after st = w ++ after st' /\ before st' = rev w ++ before st.

Lemma consumes_nil st : forall cs, consumes st [] (MSt (before st) (after st) cs).
Proof. split; reflexivity. Qed.
Lemma consumes_trans a w b v c : consumes a w b -> consumes b v c -> consumes a (w ++ v) c.
Proof.
  intros [H1 H2] [H3 H4]. split.
  - rewrite H1, H3, app_assoc. reflexivity.
  - rewrite H4, H2, rev_app_distr, app_assoc. reflexivity.
Qed.

Inductive star_l (L : pystr -> Prop) : pystr -> Prop :=
| star_nil : star_l L []
| star_app w v : w <> [] -> L w -> star_l L v -> star_l L (w ++ v).

(** Language of a pattern, look-around ignored: an over-approximation of what can be consumed. *)
Fixpoint den (r : regex) (w : pystr) : Prop :=
  match r with
  | REps => w = []
  | RChr k => exists c, w = [c] /\ cls_in k c = true
  | RSeq a b => exists w1 w2, w = w1 ++ w2 /\ den a w1 /\ den b w2
  | RAlt a b => den a w \/ den b w
  | RStar _ a => star_l (den a) w
  | RGrp _ a => den a w
  | RBol | REol | RAhead _ _ | RBehind _ _ => w = []
  end.

(** Captures: those of [st'] are those of [st] plus groups whose text lies inside [w]. *)
Definition infix (x w : pystr) : Prop := exists a b, w = a ++ x ++ b.
Definition caps_in (st : mst) (w : pystr) (st' : mst) : Prop :=
  exists l, caps st' = l ++ caps st /\ forall n s, In (n, s) l -> infix s w.

Lemma infix_refl w : infix w w.
Proof. exists [], []. rewrite app_nil_r. reflexivity. Qed.
Lemma infix_app_l x w v : infix x w -> infix x (w ++ v).
Proof. intros (a & b & ->). exists a, (b ++ v). rewrite !app_assoc. reflexivity. Qed.
Lemma infix_app_r x w v : infix x v -> infix x (w ++ v).
Proof. intros (a & b & ->). exists (w ++ a), b. rewrite !app_assoc. reflexivity. Qed.
Lemma infix_in x w c : infix x w -> In c x -> In c w.
Proof. intros (a & b & ->) H. apply in_or_app; right; apply in_or_app; left; exact H. Qed.
Lemma infix_trans x y z : infix x y -> infix y z -> infix x z.
Proof. intros (a & b & ->) (c & d & ->). exists (c ++ a), (b ++ d). rewrite !app_assoc. reflexivity. Qed.

Lemma caps_in_trans a w b v c : caps_in a w b -> caps_in b v c -> caps_in a (w ++ v) c.
Proof.
  intros (l & H1 & H2) (k & H3 & H4). exists (k ++ l). split; [rewrite H3, H1, app_assoc; reflexivity|].
  intros n s Hin. apply in_app_or in Hin. destruct Hin as [Hin|Hin].
  - apply infix_app_r. eauto.
  - apply infix_app_l. eauto.
Qed.
Lemma caps_in_refl st st' w : caps st' = caps st -> caps_in st w st'.
Proof. intro H. exists []. split; [exact H|intros ? ? []]. Qed.

Lemma star_matches_sound (m : mst -> list mst) (L : pystr -> Prop) g :
  (forall st st', In st' (m st) -> exists w, consumes st w st' /\ L w /\ caps_in st w st') ->
  forall f st st', In st' (star_matches m g f st) ->
  exists w, consumes st w st' /\ star_l L w /\ caps_in st w st'.
Proof.
  intro Hm. induction f as [|f IH]; intros st st' H; cbn in H.
  - destruct H as [<-|[]]. exists []. destruct st as [b a cs]. split; [apply consumes_nil|].
    split; [constructor|apply caps_in_refl; reflexivity].
  - assert (In st' (flat_map (star_matches m g f)
                  (filter (fun st' => Nat.ltb (length (after st')) (length (after st))) (m st))) \/ st' = st) as [Hin| ->].
    { destruct g; [apply in_app_or in H; destruct H as [H|[H|[]]]; auto|destruct H as [H|H]; auto]. }
    + apply in_flat_map in Hin. destruct Hin as (st1 & H1 & H2). apply filter_In in H1. destruct H1 as [H1 Hlt].
      apply Hm in H1. destruct H1 as (w & Hc & Hw & Hk). apply IH in H2. destruct H2 as (v & Hc2 & Hv & Hk2).
      exists (w ++ v). split; [eapply consumes_trans; eauto|]. split; [|eapply caps_in_trans; eauto].
      apply star_app; auto. intros ->. destruct Hc as [Hc _]. cbn in Hc. apply Nat.ltb_lt in Hlt. rewrite Hc in Hlt. lia.
    + exists []. destruct st as [b a cs]. split; [apply consumes_nil|]. split; [constructor|apply caps_in_refl; reflexivity].
Qed.

Lemma matches_sound r : forall st st', In st' (matches r st) ->
  exists w, consumes st w st' /\ den r w /\ caps_in st w st'.
Proof.
  induction r as [|k|a IHa b IHb|a IHa b IHb|g a IHa|n a IHa| | |p k|p k]; intros st st' H; cbn [matches] in H.
  - destruct H as [<-|[]]. exists []. destruct st. split; [apply consumes_nil|]. split; [reflexivity|apply caps_in_refl; reflexivity].
  - destruct st as [bf [|c s] cs]; [contradiction|]. cbn [after before caps] in H.
    destruct (cls_in k c) eqn:E; [|contradiction]. destruct H as [<-|[]].
    exists [c]. split; [split; reflexivity|]. split; [exists c; auto|apply caps_in_refl; reflexivity].
  - apply in_flat_map in H. destruct H as (st1 & H1 & H2).
    apply IHa in H1. destruct H1 as (w & Hc & Hw & Hk). apply IHb in H2. destruct H2 as (v & Hc2 & Hv & Hk2).
    exists (w ++ v). split; [eapply consumes_trans; eauto|]. split; [exists w, v; auto|eapply caps_in_trans; eauto].
  - apply in_app_or in H. destruct H as [H|H]; [apply IHa in H|apply IHb in H];
      destruct H as (w & Hc & Hw & Hk); exists w; split; auto; split; auto; cbn; auto.
  - eapply star_matches_sound in H; [exact H|exact IHa].
  - apply in_map_iff in H. destruct H as (st1 & <- & H). apply IHa in H. destruct H as (w & Hc & Hw & (l & Hl & Hk)).
    exists w. split; [exact Hc|]. split; [exact Hw|].
    exists ((n, firstn (length (after st) - length (after st1)) (after st)) :: l). cbn [caps]. split; [rewrite Hl; reflexivity|].
    intros n' s' [[= <- <-]|Hin]; [|eauto].
    destruct Hc as [Hc _]. rewrite Hc, app_length, Nat.add_sub, firstn_app, Nat.sub_diag, firstn_all, app_nil_r. apply infix_refl.
  - destruct st as [[|c bf] s cs]; cbn in H; [|contradiction]. destruct H as [<-|[]].
    exists []. split; [apply consumes_nil|]. split; [reflexivity|apply caps_in_refl; reflexivity].
  - destruct (at_end (after st)); [|contradiction]. destruct H as [<-|[]]. exists []. destruct st.
    split; [apply consumes_nil|]. split; [reflexivity|apply caps_in_refl; reflexivity].
  - destruct (Bool.eqb _ _); [|contradiction]. destruct H as [<-|[]]. exists []. destruct st.
    split; [apply consumes_nil|]. split; [reflexivity|apply caps_in_refl; reflexivity].
  - destruct (Bool.eqb _ _); [|contradiction]. destruct H as [<-|[]]. exists []. destruct st.
    split; [apply consumes_nil|]. split; [reflexivity|apply caps_in_refl; reflexivity].
Qed.

Lemma hd_error_in {A} (l : list A) x : hd_error l = Some x -> In x l.
Proof. destruct l; [discriminate|]. intros [= ->]. left; reflexivity. Qed.
Lemma match_at_sound r pre s st : match_at r pre s = Some st ->
  exists w, s = w ++ after st /\ before st = rev w ++ pre /\ den r w /\
            (forall n x, In (n, x) (caps st) -> infix x w).
Proof.
  intro H. apply hd_error_in, matches_sound in H. destruct H as (w & [H1 H2] & Hd & (l & Hl & Hk)).
  exists w. cbn in *. repeat split; auto. intros n x Hin. rewrite Hl, app_nil_r in Hin. eauto.
Qed.
Lemma match_at_none r pre s : match_at r pre s = None <-> matches r (MSt pre s []) = [].
Proof. unfold match_at. destruct (matches r (MSt pre s [])); cbn; split; congruence. Qed.

(** ** re.search *)
Lemma search_from_sound r pre s st : search_from r pre s = Some st ->
  exists a w, s = a ++ w ++ after st /\ before st = rev (a ++ w) ++ pre /\ den r w /\
    (forall n x, In (n, x) (caps st) -> infix x w).
Proof.
  revert pre; induction s as [|c s IH]; intro pre; cbn [search_from];
    destruct (match_at r pre _) as [st1|] eqn:E.
  - intros [= <-]. apply match_at_sound in E. destruct E as (w & H1 & H2 & H3 & H4).
    exists [], w. auto.
  - discriminate.
  - intros [= <-]. apply match_at_sound in E. destruct E as (w & H1 & H2 & H3 & H4).
    exists [], w. auto.
  - intro H. apply IH in H. destruct H as (a & w & H1 & H2 & H3 & H4).
    exists (c :: a), w. cbn. rewrite H2, <- app_assoc. cbn. rewrite H1. auto.
Qed.
Lemma re_search_sound r s st : re_search r s = Some st ->
  exists a w, s = a ++ w ++ after st /\ before st = rev (a ++ w) /\ den r w /\
    (forall n x, In (n, x) (caps st) -> infix x w).
Proof.
  intro H. apply search_from_sound in H. destruct H as (a & w & H1 & H2 & H3).
  exists a, w. rewrite app_nil_r in H2. auto.
Qed.
Lemma search_none_den r s : (forall w, infix w s -> ~ den r w) -> re_search r s = None.
Proof.
  intro H. destruct (re_search r s) as [st|] eqn:E; [|reflexivity].
  apply re_search_sound in E. destruct E as (a & w & H1 & _ & H3 & _). exfalso. apply (H w); [|exact H3].
  exists a, (after st). exact H1.
Qed.
(** Anchored patterns are tried at the start only. *)
Definition anchored (r : regex) : bool := match r with RSeq RBol _ => true | _ => false end.
Lemma anchored_none r pre s : anchored r = true -> pre <> [] -> match_at r pre s = None.
Proof.
  intros H Hp. apply match_at_none. destruct r as [| |a b| | | | | | |]; try discriminate. destruct a; try discriminate.
  cbn. destruct pre; [contradiction|reflexivity].
Qed.
Lemma anchored_search r s : anchored r = true -> re_search r s = match_at r [] s.
Proof.
  intro H. unfold re_search. destruct s as [|c s]; cbn [search_from]; destruct (match_at r [] _) eqn:E; auto.
  assert (forall pre s', pre <> [] -> search_from r pre s' = None) as G.
  { intros pre s'; revert pre; induction s' as [|d s' IH]; intros pre Hp; cbn; rewrite (anchored_none _ _ _ H Hp); auto.
    apply IH. discriminate. }
  apply G. discriminate.
Qed.

(** ** re.sub *)
Lemma sub_go_skip r f s : forall k pre, (k <= length s)%nat ->
  sub_go r f k pre s = sub_go r f O (rev (firstn k s) ++ pre) (skipn k s).
Proof.
  induction s as [|c s IH]; intros [|k] pre H; cbn in H; try lia; try reflexivity.
  cbn [sub_go firstn skipn rev]. rewrite IH by lia. rewrite <- app_assoc. reflexivity.
Qed.
Lemma sub_go_none r f pre c s :
  match_at r pre (c :: s) = None -> sub_go r f O pre (c :: s) = c :: sub_go r f O (c :: pre) s.
Proof. intro H. cbn [sub_go]. rewrite H. reflexivity. Qed.
Lemma sub_go_match r f pre w s st :
  match_at r pre (w ++ s) = Some st -> after st = s -> w <> [] ->
  sub_go r f O pre (w ++ s) = f w (caps st) ++ sub_go r f O (rev w ++ pre) s.
Proof.
  intros H Ha Hw. destruct w as [|c w]; [contradiction|].
  cbn [sub_go app] in *. rewrite H, Ha. cbn [length]. rewrite app_length.
  replace (S (length w + length s) - length s)%nat with (S (length w)) by lia.
  cbn [firstn]. rewrite firstn_app, Nat.sub_diag, firstn_all, app_nil_r. f_equal.
  rewrite sub_go_skip by (rewrite app_length; lia).
  rewrite firstn_app, Nat.sub_diag, firstn_all, app_nil_r.
  rewrite skipn_app, Nat.sub_diag, skipn_all. cbn [app rev firstn skipn]. rewrite <- app_assoc. reflexivity.
Qed.
Lemma sub_go_empty_match r f pre c s st :
  match_at r pre (c :: s) = Some st -> after st = c :: s ->
  sub_go r f O pre (c :: s) = c :: sub_go r f O (c :: pre) s.
Proof. intros H Ha. cbn [sub_go]. rewrite H, Ha, Nat.sub_diag. reflexivity. Qed.

(** Induction over a substitution: input positions are kept or replaced by [f]. *)
Lemma sub_go_ind r f (P : pystr -> pystr -> pystr -> Prop) :
  (forall pre, P pre [] []) ->
  (forall pre c s o, P (c :: pre) s o -> P pre (c :: s) (c :: o)) ->
  (forall pre w s o st, w <> [] -> match_at r pre (w ++ s) = Some st -> after st = s -> den r w ->
     (forall n x, In (n, x) (caps st) -> infix x w) ->
     P (rev w ++ pre) s o -> P pre (w ++ s) (f w (caps st) ++ o)) ->
  forall s pre, P pre s (sub_go r f O pre s).
Proof.
  intros Hnil Hkeep Hmatch s.
  assert (forall n s, (length s <= n)%nat -> forall pre, P pre s (sub_go r f O pre s)) as G; [|eauto].
  clear s. induction n as [|n IH]; intros s Hl pre.
  - destruct s; [apply Hnil|cbn in Hl; lia].
  - destruct s as [|c s]; [apply Hnil|].
    destruct (match_at r pre (c :: s)) as [st|] eqn:E.
    + pose proof (match_at_sound _ _ _ _ E) as (w & H1 & _ & Hd & Hk).
      destruct w as [|c' w].
      * cbn in H1. rewrite (sub_go_empty_match _ _ _ _ _ _ E (eq_sym H1)). apply Hkeep, IH. cbn in Hl; lia.
      * rewrite H1 in E. rewrite H1. rewrite (sub_go_match r f pre (c' :: w) (after st) st E eq_refl) by discriminate.
        apply Hmatch; auto; [discriminate|]. apply IH.
        apply (f_equal (@length N)) in H1. cbn in H1. rewrite app_length in H1. cbn in Hl. lia.
    + rewrite sub_go_none by exact E. apply Hkeep, IH. cbn in Hl; lia.
Qed.

Lemma infix_skip x c s : infix x s -> infix x (c :: s).
Proof. intros (a & b & ->). exists (c :: a), b. reflexivity. Qed.
Lemma infix_drop x w s : infix x s -> infix x (w ++ s).
Proof. apply infix_app_r. Qed.

Lemma sub_id_den r f s : (forall w, infix w s -> w <> [] -> ~ den r w) -> re_sub_fun r f s = s.
Proof.
  unfold re_sub_fun. intro H0. assert (H : forall w, infix w s -> den r w -> w = []).
  { intros w Hi Hd. destruct w; [reflexivity|]. exfalso. eapply H0; eauto. discriminate. }
  clear H0. assert (forall pre, sub_go r f O pre s = s) as G; [|apply G].
  induction s as [|c s IH]; intros pre; [reflexivity|].
  destruct (match_at r pre (c :: s)) as [st|] eqn:E.
  - pose proof (match_at_sound _ _ _ _ E) as (w & H1 & _ & Hd & _). destruct w as [|c' w].
    + cbn in H1. rewrite (sub_go_empty_match _ _ _ _ _ _ E (eq_sym H1)). f_equal. apply IH.
      intros w Hw. apply H, infix_skip, Hw.
    + exfalso. discriminate (H (c' :: w)); [exists [], (after st); exact H1|exact Hd].
  - rewrite sub_go_none by exact E. f_equal. apply IH. intros w Hw. apply H, infix_skip, Hw.
Qed.

(** ** Needed characters *)
(** Every word of [r] contains a character of a class selected by [ok]. *)
Fixpoint needs (ok : cls -> bool) (r : regex) : bool :=
  match r with
  | RChr k => ok k
  | RSeq a b => needs ok a || needs ok b
  | RAlt a b => needs ok a && needs ok b
  | RGrp _ a => needs ok a
  | _ => false
  end.
Lemma needs_sound (ok : cls -> bool) (p : N -> Prop) :
  (forall k c, ok k = true -> cls_in k c = true -> p c) ->
  forall r w, needs ok r = true -> den r w -> exists c, In c w /\ p c.
Proof.
  intro Hok. induction r as [|k|a IHa b IHb|a IHa b IHb|g a IHa|n a IHa| | |q k|q k]; intros w Hn Hd; cbn in Hn, Hd; try discriminate.
  - destruct Hd as (c & -> & Hc). exists c. split; [left; reflexivity|eauto].
  - destruct Hd as (w1 & w2 & -> & H1 & H2). apply orb_true_iff in Hn. destruct Hn as [Hn|Hn].
    + destruct (IHa _ Hn H1) as (c & Hin & Hp). exists c. split; [apply in_or_app; auto|exact Hp].
    + destruct (IHb _ Hn H2) as (c & Hin & Hp). exists c. split; [apply in_or_app; auto|exact Hp].
  - apply andb_true_iff in Hn. destruct Hn as [Hn1 Hn2]. destruct Hd as [Hd|Hd]; eauto.
  - eauto.
Qed.
Definition is_lit (c : N) (k : cls) : bool := match k with CLit x => x =? c | _ => false end.
Definition needs_lit (c : N) (r : regex) : bool := needs (is_lit c) r.
Lemma needs_lit_sound c r w : needs_lit c r = true -> den r w -> In c w.
Proof.
  intros Hn Hd. destruct (needs_sound (is_lit c) (fun x => x = c)) with (r := r) (w := w) as (x & Hx & ->); auto.
  intros k x Hk Hx. destruct k; try discriminate. cbn in *. apply N.eqb_eq in Hk, Hx. congruence.
Qed.
Lemma sub_id_lit c r f s : needs_lit c r = true -> ~ In c s -> re_sub_fun r f s = s.
Proof.
  intros Hn Hs. apply sub_id_den. intros w Hw _ Hd. apply Hs. eapply infix_in; [exact Hw|].
  eapply needs_lit_sound; eauto.
Qed.
Lemma search_none_lit c r s : needs_lit c r = true -> ~ In c s -> re_search r s = None.
Proof.
  intros Hn Hs. apply search_none_den. intros w Hw Hd. apply Hs. eapply infix_in; [exact Hw|].
  eapply needs_lit_sound; eauto.
Qed.
Lemma test_none_lit c r s : needs_lit c r = true -> ~ In c s -> re_test r s = false.
Proof. intros. unfold re_test. rewrite (search_none_lit c); auto. Qed.

(** ** Patterns that match no empty string *)
Fixpoint nullable (r : regex) : bool :=
  match r with
  | RChr _ => false
  | RSeq a b => nullable a && nullable b
  | RAlt a b => nullable a || nullable b
  | RGrp _ a => nullable a
  | _ => true
  end.
Lemma nullable_sound r w : nullable r = false -> den r w -> w <> [].
Proof.
  revert w; induction r as [|k|a IHa b IHb|a IHa b IHb|g a IHa|n a IHa| | |q k|q k]; intros w Hn Hd; cbn in Hn, Hd; try discriminate.
  - destruct Hd as (c & -> & _). discriminate.
  - destruct Hd as (w1 & w2 & -> & H1 & H2). apply andb_false_iff in Hn. destruct Hn as [Hn|Hn].
    + specialize (IHa _ Hn H1). destruct w1; [contradiction|discriminate].
    + specialize (IHb _ Hn H2). destruct w1; [exact IHb|discriminate].
  - apply orb_false_iff in Hn. destruct Hn. destruct Hd; eauto.
  - eauto.
Qed.

(** ** Characters of the result *)
Definition lits (t : list piece) : pystr := flat_map (fun p => match p with PLit s => s | PGrp _ => [] end) t.
Lemma group_in n l s : group n l = Some s -> In (n, s) l.
Proof.
  induction l as [|[k x] l IH]; cbn; [discriminate|]. destruct (Nat.eqb_spec k n) as [->|]; [intros [= ->]|]; auto.
Qed.
Lemma expand_in t cs w c : (forall n x, In (n, x) cs -> infix x w) -> In c (expand t cs) -> In c w \/ In c (lits t).
Proof.
  intros Hk H. unfold expand in H. apply in_flat_map in H. destruct H as (p & Hp & Hc).
  destruct p as [s|n].
  - right. unfold lits. apply in_flat_map. exists (PLit s). auto.
  - left. destruct (group n cs) as [s|] eqn:E; [|contradiction]. eapply infix_in; [eapply Hk, group_in, E|exact Hc].
Qed.
Lemma re_sub_in r t s c : In c (re_sub r t s) -> In c s \/ In c (lits t).
Proof.
  unfold re_sub, re_sub_fun. generalize (@nil N) as pre. intro pre.
  apply (sub_go_ind r _ (fun _ s o => In c o -> In c s \/ In c (lits t))).
  - intros _ [].
  - intros _ d s' o IH [->|H]; [left; left; reflexivity|]. destruct (IH H); auto. left; right; assumption.
  - intros _ w s' o st Hw _ _ _ Hk IH H. apply in_app_or in H. destruct H as [H|H].
    + eapply expand_in in H; [|exact Hk]. destruct H; auto. left. apply in_or_app; auto.
    + destruct (IH H); auto. left. apply in_or_app; auto.
Qed.
Lemma re_del_in r s c : In c (re_del r s) -> In c s.
Proof. intro H. apply re_sub_in in H. destruct H as [H|[]]. exact H. Qed.

(** ** Exact characterisation of the elements of [matches] *)
Lemma in_seq a b st st' : In st' (matches (RSeq a b) st) <-> exists st1, In st1 (matches a st) /\ In st' (matches b st1).
Proof. cbn [matches]. apply in_flat_map. Qed.
Lemma in_alt a b st st' : In st' (matches (RAlt a b) st) <-> In st' (matches a st) \/ In st' (matches b st).
Proof. cbn [matches]. apply in_app_iff. Qed.
Lemma in_chr k pre s cs st' : In st' (matches (RChr k) (MSt pre s cs)) <->
  exists c s', s = c :: s' /\ cls_in k c = true /\ st' = MSt (c :: pre) s' cs.
Proof.
  cbn. destruct s as [|c s]; [split; [intros []|intros (? & ? & ? & _); discriminate]|].
  destruct (cls_in k c) eqn:E; cbn; split.
  - intros [<-|[]]. eauto.
  - intros (c' & s' & [= <- <-] & _ & ->). auto.
  - intros [].
  - intros (c' & s' & [= <- <-] & H & _). congruence.
Qed.

Lemma star_chr_in k g : forall f pre s cs st', (length s <= f)%nat ->
  (In st' (star_matches (matches (RChr k)) g f (MSt pre s cs)) <->
   exists w s', s = w ++ s' /\ forallb (cls_in k) w = true /\ st' = MSt (rev w ++ pre) s' cs).
Proof.
  induction f as [|f IH]; intros pre s cs st' Hf.
  - destruct s; [|cbn in Hf; lia]. cbn. split.
    + intros [<-|[]]. exists [], []. auto.
    + intros (w & s' & H & _ & ->). destruct w, s'; try discriminate. auto.
  - cbn [star_matches].
    set (more := flat_map _ _).
    assert (Hmore : In st' more <-> exists c w s', s = c :: w ++ s' /\ cls_in k c = true /\ forallb (cls_in k) w = true
                     /\ st' = MSt (rev w ++ c :: pre) s' cs).
    { unfold more. rewrite in_flat_map. split.
      - intros (st1 & H1 & H2). apply filter_In in H1. destruct H1 as [H1 _]. apply in_chr in H1.
        destruct H1 as (c & s1 & -> & Hc & ->). apply IH in H2; [|cbn in Hf; lia].
        destruct H2 as (w & s' & -> & Hw & ->). exists c, w, s'. auto.
      - intros (c & w & s' & -> & Hc & Hw & ->). exists (MSt (c :: pre) (w ++ s') cs). split.
        + apply filter_In. split; [apply in_chr; exists c, (w ++ s'); auto|]. cbn [after length]. apply Nat.ltb_lt. lia.
        + apply IH; [cbn in Hf; lia|]. exists w, s'. auto. }
    assert (Hor : In st' (if g then more ++ [MSt pre s cs] else MSt pre s cs :: more) <-> In st' more \/ st' = MSt pre s cs).
    { destruct g; [rewrite in_app_iff; cbn|cbn]; intuition. }
    rewrite Hor, Hmore. split.
    + intros [(c & w & s' & -> & Hc & Hw & ->)| ->].
      * exists (c :: w), s'. cbn. rewrite Hc, Hw, <- app_assoc. auto.
      * exists [], s. auto.
    + intros (w & s' & -> & Hw & ->). destruct w as [|c w]; [right; reflexivity|]. left.
      cbn in Hw. apply andb_true_iff in Hw. destruct Hw. exists c, w, s'. cbn. rewrite <- app_assoc. auto.
Qed.
Lemma in_star_chr k g pre s cs st' : In st' (matches (RStar g (RChr k)) (MSt pre s cs)) <->
  exists w s', s = w ++ s' /\ forallb (cls_in k) w = true /\ st' = MSt (rev w ++ pre) s' cs.
Proof. cbn [matches]. apply star_chr_in. cbn. lia. Qed.
Lemma in_grp n a pre s cs st' : In st' (matches (RGrp n a) (MSt pre s cs)) <->
  exists st1 w, In st1 (matches a (MSt pre s cs)) /\ s = w ++ after st1 /\
    st' = MSt (before st1) (after st1) ((n, w) :: caps st1).
Proof.
  cbn [matches]. rewrite in_map_iff. split.
  - intros (st1 & <- & H). pose proof (matches_sound _ _ _ H) as (w & [Hc _] & _). cbn in Hc.
    exists st1, w. split; [exact H|]. split; [exact Hc|]. cbn [after].
    rewrite Hc, app_length, Nat.add_sub, firstn_app, Nat.sub_diag, firstn_all. cbn [firstn]. rewrite app_nil_r. reflexivity.
  - intros (st1 & w & H & Hc & ->). exists st1. split; [|exact H]. cbn [after].
    rewrite Hc, app_length, Nat.add_sub, firstn_app, Nat.sub_diag, firstn_all. cbn [firstn]. rewrite app_nil_r. reflexivity.
Qed.
Lemma in_bol pre s cs st' : In st' (matches RBol (MSt pre s cs)) <-> pre = [] /\ st' = MSt pre s cs.
Proof. cbn. destruct pre; cbn; [intuition|]. split; [intros []|intros [? _]; discriminate]. Qed.
Lemma in_eol pre s cs st' : In st' (matches REol (MSt pre s cs)) <-> at_end s = true /\ st' = MSt pre s cs.
Proof. cbn. destruct (at_end s); cbn; [intuition|]. split; [intros []|intros [? _]; discriminate]. Qed.
Lemma in_eps st st' : In st' (matches REps st) <-> st' = st.
Proof. cbn. intuition. Qed.
Lemma in_rstr t : forall pre s cs st', In st' (matches (rstr t) (MSt pre s cs)) <->
  exists s', s = t ++ s' /\ st' = MSt (rev t ++ pre) s' cs.
Proof.
  induction t as [|c t IH]; intros pre s cs st'; cbn [rstr].
  - rewrite in_eps. cbn. split; [intros ->; eauto|intros (s' & -> & ->); reflexivity].
  - rewrite in_seq. split.
    + intros (st1 & H1 & H2). apply in_chr in H1. destruct H1 as (d & s1 & -> & Hd & ->).
      cbn in Hd. apply N.eqb_eq in Hd. subst d. apply IH in H2. destruct H2 as (s' & -> & ->).
      exists s'. cbn. rewrite <- app_assoc. auto.
    + intros (s' & -> & ->). exists (MSt (c :: pre) (t ++ s') cs). split.
      * apply in_chr. exists c, (t ++ s'). cbn. rewrite N.eqb_refl. auto.
      * apply IH. exists s'. cbn. rewrite <- app_assoc. auto.
Qed.
Lemma in_plus_chr k pre s cs st' : In st' (matches (RPlus (RChr k)) (MSt pre s cs)) <->
  exists w s', s = w ++ s' /\ w <> [] /\ forallb (cls_in k) w = true /\ st' = MSt (rev w ++ pre) s' cs.
Proof.
  unfold RPlus. rewrite in_seq. split.
  - intros (st1 & H1 & H2). apply in_chr in H1. destruct H1 as (c & s1 & -> & Hc & ->).
    apply in_star_chr in H2. destruct H2 as (w & s' & -> & Hw & ->). exists (c :: w), s'.
    cbn. rewrite Hc, Hw, <- app_assoc. repeat split; auto. discriminate.
  - intros (w & s' & -> & Hne & Hw & ->). destruct w as [|c w]; [contradiction|]. cbn in Hw. apply andb_true_iff in Hw.
    destruct Hw as [Hc Hw]. exists (MSt (c :: pre) (w ++ s') cs). split; [apply in_chr; exists c, (w ++ s'); auto|].
    apply in_star_chr. exists w, s'. cbn. rewrite <- app_assoc. auto.
Qed.
Lemma in_opt a st st' : In st' (matches (ROpt a) st) <-> In st' (matches a st) \/ st' = st.
Proof. unfold ROpt. rewrite in_alt, in_eps. reflexivity. Qed.
Lemma in_rseq_cons a l st st' : In st' (matches (rseq (a :: l)) st) <->
  exists st1, In st1 (matches a st) /\ In st' (matches (rseq l) st1).
Proof. cbn [rseq]. apply in_seq. Qed.
Lemma in_rseq_nil st st' : In st' (matches (rseq []) st) <-> st' = st.
Proof. cbn [rseq]. apply in_eps. Qed.

(** If all matches agree, the engine's answer is that one. *)
Lemma match_at_unique r pre s st : In st (matches r (MSt pre s [])) ->
  (forall st', In st' (matches r (MSt pre s [])) -> st' = st) -> match_at r pre s = Some st.
Proof.
  intros H1 H2. unfold match_at. destruct (matches r (MSt pre s [])) as [|x l]; [contradiction|].
  cbn. f_equal. apply H2. left; reflexivity.
Qed.

(** ** Priorities *)
Lemma hd_flat_map {A B} (f : A -> list B) x l y : hd_error (f x) = Some y -> hd_error (flat_map f (x :: l)) = Some y.
Proof. cbn. destruct (f x); [discriminate|]. cbn. auto. Qed.
Lemma hd_flat_map_skip {A B} (f : A -> list B) x l : f x = [] -> hd_error (flat_map f (x :: l)) = hd_error (flat_map f l).
Proof. intro H. cbn. rewrite H. reflexivity. Qed.
Lemma hd_app {A} (l k : list A) x : hd_error l = Some x -> hd_error (l ++ k) = Some x.
Proof. destruct l; [discriminate|]. auto. Qed.

(** Greedy repetition of a deterministic body. *)
Lemma star_greedy_step m f st st1 : m st = [st1] -> (length (after st1) < length (after st))%nat ->
  hd_error (star_matches m true (S f) st) = hd_error (star_matches m true f st1).
Proof.
  intros H Hl. cbn [star_matches]. rewrite H. cbn [filter]. apply Nat.ltb_lt in Hl. rewrite Hl. cbn [flat_map].
  rewrite app_nil_r. destruct (star_matches m true f st1) eqn:E; [|reflexivity].
  exfalso. destruct f; cbn in E; [discriminate|]. destruct (flat_map _ _); discriminate.
Qed.
Lemma star_greedy_stop m f st : m st = [] -> star_matches m true f st = [st].
Proof. intro H. destruct f; [reflexivity|]. cbn. rewrite H. reflexivity. Qed.

(** All positions of a run of class characters, longest first. *)
Lemma matches_star_run k pre w s cs :
  forallb (cls_in k) w = true -> match s with [] => True | c :: _ => cls_in k c = false end ->
  hd_error (matches (RStarG (RChr k)) (MSt pre (w ++ s) cs)) = Some (MSt (rev w ++ pre) s cs).
Proof.
  intros Hw Hs. unfold RStarG. cbn [matches]. remember (length (after (MSt pre (w ++ s) cs))) as f.
  assert (Hf : (length (w ++ s) <= f)%nat) by (subst; cbn; lia). clear Heqf.
  revert f pre Hf; induction w as [|c w IH]; intros f pre Hf.
  - rewrite star_greedy_stop; [reflexivity|]. cbn. destruct s; [reflexivity|]. rewrite Hs. reflexivity.
  - cbn in Hw. apply andb_true_iff in Hw. destruct Hw as [Hc Hw]. destruct f as [|f]; [cbn in Hf; lia|].
    rewrite star_greedy_step with (st1 := MSt (c :: pre) (w ++ s) cs).
    + cbn [rev]. rewrite <- app_assoc. apply IH; [exact Hw|cbn in Hf; lia].
    + cbn. rewrite Hc. reflexivity.
    + cbn. lia.
Qed.
