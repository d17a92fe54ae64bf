(** First matches: the engine's preferred match, computed compositionally; and
    substitutions that leave a prefix alone. *)
From Coq Require Import List NArith Bool Lia Arith.
From Verif Require Import PyStr PyStrTheory Regex RegexTheory NormTheory.
Import ListNotations.
Local Open Scope N_scope.

(** [fm r st st']: the first match of [r] from [st] ends in [st']. *)
Definition fm (r : regex) (st st' : mst) : Prop := hd_error (matches r st) = Some st'.
(** [r] does not match at [st]. *)
Definition nm (r : regex) (st : mst) : Prop := matches r st = [].

Lemma fm_match_at r pre s st : fm r (MSt pre s []) st -> match_at r pre s = Some st.
Proof. exact (fun H => H). Qed.
Lemma nm_match_at r pre s : nm r (MSt pre s []) -> match_at r pre s = None.
Proof. intro H. apply match_at_none, H. Qed.

Lemma fm_eps st : fm REps st st.
Proof. reflexivity. Qed.
Lemma fm_chr k c pre s cs : cls_in k c = true -> fm (RChr k) (MSt pre (c :: s) cs) (MSt (c :: pre) s cs).
Proof. intro H. unfold fm. cbn. rewrite H. reflexivity. Qed.
Lemma nm_chr k c pre s cs : cls_in k c = false -> nm (RChr k) (MSt pre (c :: s) cs).
Proof. intro H. unfold nm. cbn. rewrite H. reflexivity. Qed.
Lemma nm_chr_nil k pre cs : nm (RChr k) (MSt pre [] cs).
Proof. reflexivity. Qed.
Lemma fm_seq a b st st1 st2 : fm a st st1 -> fm b st1 st2 -> fm (RSeq a b) st st2.
Proof.
  unfold fm. intros H1 H2. cbn [matches]. destruct (matches a st) as [|x l]; [discriminate|]. injection H1 as ->. apply hd_flat_map, H2.
Qed.
(** Backtracking into the next choice of [a] *)
Lemma nm_seq a b st : (forall st1, In st1 (matches a st) -> nm b st1) -> nm (RSeq a b) st.
Proof.
  unfold nm. cbn [matches]. induction (matches a st) as [|x l IH]; intro H; [reflexivity|]. cbn [flat_map].
  rewrite H by (left; reflexivity). apply IH. intros y Hy. apply H. right; exact Hy.
Qed.
Lemma nm_seq_l a b st : nm a st -> nm (RSeq a b) st.
Proof. intro H. apply nm_seq. rewrite H. intros ? []. Qed.
Lemma nm_seq_r a b st st1 : matches a st = [st1] -> nm b st1 -> nm (RSeq a b) st.
Proof. intros H1 H2. apply nm_seq. rewrite H1. intros ? [<-|[]]. exact H2. Qed.
Lemma fm_alt_l a b st st' : fm a st st' -> fm (RAlt a b) st st'.
Proof. unfold fm. cbn [matches]. apply hd_app. Qed.
Lemma fm_alt_r a b st st' : nm a st -> fm b st st' -> fm (RAlt a b) st st'.
Proof. unfold fm, nm. cbn [matches]. intros -> H. exact H. Qed.
Lemma nm_alt a b st : nm a st -> nm b st -> nm (RAlt a b) st.
Proof. unfold nm. cbn [matches]. intros -> ->. reflexivity. Qed.
Lemma fm_opt a st st' : fm a st st' -> fm (ROpt a) st st'.
Proof. apply fm_alt_l. Qed.
Lemma fm_opt_none a st : nm a st -> fm (ROpt a) st st.
Proof. intro H. apply fm_alt_r; [exact H|reflexivity]. Qed.
Lemma fm_run k pre w s cs : forallb (cls_in k) w = true -> match s with [] => True | c :: _ => cls_in k c = false end ->
  fm (RStarG (RChr k)) (MSt pre (w ++ s) cs) (MSt (rev w ++ pre) s cs).
Proof. apply matches_star_run. Qed.
Lemma fm_run_nil k pre s cs : match s with [] => True | c :: _ => cls_in k c = false end ->
  fm (RStarG (RChr k)) (MSt pre s cs) (MSt pre s cs).
Proof. intro H. apply (fm_run k pre [] s cs eq_refl H). Qed.
Lemma fm_plus k pre w s cs : w <> [] -> forallb (cls_in k) w = true -> match s with [] => True | c :: _ => cls_in k c = false end ->
  fm (RPlus (RChr k)) (MSt pre (w ++ s) cs) (MSt (rev w ++ pre) s cs).
Proof.
  intros Hne Hw Hs. destruct w as [|c w]; [contradiction|]. cbn [forallb] in Hw. apply andb_true_iff in Hw. destruct Hw as [Hc Hw].
  apply fm_seq with (MSt (c :: pre) (w ++ s) cs); [apply fm_chr; exact Hc|].
  cbn [rev]. rewrite <- app_assoc. apply fm_run; assumption.
Qed.
Lemma fm_grp n a pre w s cs b cs' : fm a (MSt pre (w ++ s) cs) (MSt b s cs') ->
  fm (RGrp n a) (MSt pre (w ++ s) cs) (MSt b s ((n, w) :: cs')).
Proof.
  unfold fm. intro H. cbn [matches]. destruct (matches a _); [discriminate|]. injection H as ->. cbn [map hd_error before after caps].
  rewrite app_length. replace (length w + length s - length s)%nat with (length w) by lia.
  rewrite firstn_app, firstn_all, Nat.sub_diag. cbn [firstn]. rewrite app_nil_r. reflexivity.
Qed.
Lemma nm_grp n a st : nm a st -> nm (RGrp n a) st.
Proof. unfold nm. cbn [matches]. intros ->. reflexivity. Qed.
Lemma fm_rstr t pre s cs : fm (rstr t) (MSt pre (t ++ s) cs) (MSt (rev t ++ pre) s cs).
Proof.
  revert pre; induction t as [|c t IH]; intro pre; [reflexivity|]. cbn [rstr rev]. rewrite <- app_assoc.
  apply fm_seq with (MSt (c :: pre) (t ++ s) cs); [apply fm_chr, N.eqb_refl|apply IH].
Qed.
Lemma nm_rstr t pre s cs : starts_with t s = false -> nm (rstr t) (MSt pre s cs).
Proof.
  intro H. unfold nm. destruct (matches (rstr t) (MSt pre s cs)) as [|x l] eqn:E; [reflexivity|].
  assert (Hin : In x (matches (rstr t) (MSt pre s cs))) by (rewrite E; left; reflexivity).
  apply in_rstr in Hin. destruct Hin as (s' & -> & _). exfalso. rewrite <- not_true_iff_false in H. apply H, starts_with_spec. eauto.
Qed.
Lemma fm_bol s cs : fm RBol (MSt [] s cs) (MSt [] s cs).
Proof. reflexivity. Qed.
Lemma fm_eol pre cs : fm REol (MSt pre [] cs) (MSt pre [] cs).
Proof. reflexivity. Qed.
Lemma fm_eol_nl pre cs : fm REol (MSt pre [10] cs) (MSt pre [10] cs).
Proof. reflexivity. Qed.

(** A substitution whose pattern matches first at the start *)
Lemma sub_first r f w s st : match_at r [] (w ++ s) = Some st -> after st = s -> w <> [] ->
  re_sub_fun r f (w ++ s) = f w (caps st) ++ sub_go r f O (rev w) s.
Proof. intros H Ha Hw. unfold re_sub_fun. rewrite (sub_go_match r f [] w s st H Ha Hw), app_nil_r. reflexivity. Qed.
Lemma sub_go_nil r f k pre : sub_go r f k pre [] = [].
Proof. reflexivity. Qed.
Lemma sub_go_id_den r f s pre : (forall w, infix w s -> w <> [] -> ~ den r w) -> sub_go r f O pre s = s.
Proof.
  apply (sub_go_ind r f (fun _ s o => (forall w, infix w s -> w <> [] -> ~ den r w) -> o = s)).
  - reflexivity.
  - intros _ c t o IH H. f_equal. apply IH. intros w Hw. apply H. apply infix_skip, Hw.
  - intros _ w t o st Hw _ _ Hd _ _ H. exfalso. apply (H w); [exists [], t; reflexivity|exact Hw|exact Hd].
Qed.

(** ** Prefixes in which no match can start *)
Section Heads.
Variable alpha : N -> bool.
(** Non-empty words of the pattern start outside the alphabet. *)
Fixpoint ho (r : regex) : bool :=
  match r with
  | RChr k => out_of alpha k
  | RSeq a b => ho a && (ho b || negb (nullable a))
  | RAlt a b => ho a && ho b
  | RStar _ a => ho a
  | RGrp _ a => ho a
  | _ => true
  end.
Definition starts_out (r : regex) : bool := ho r && negb (nullable r).
Lemma ho_sound r w : ho r = true -> den r w -> match w with [] => True | c :: _ => alpha c = false end.
Proof.
  revert w; induction r as [|k|a IHa b IHb|a IHa b IHb|g a IHa|n a IHa| | |q k|q k]; intros w Hh Hd; cbn [ho den] in Hh, Hd;
    try (subst w; exact I).
  - destruct Hd as (c & -> & Hc). eapply out_of_sound; eauto.
  - destruct Hd as (w1 & w2 & -> & H1 & H2). apply andb_true_iff in Hh. destruct Hh as [Ha Hb]. destruct w1 as [|c w1].
    + apply orb_true_iff in Hb. destruct Hb as [Hb|Hb]; [apply (IHb w2 Hb H2)|].
      apply negb_true_iff in Hb. exfalso. apply (nullable_sound a [] Hb H1). reflexivity.
    + apply (IHa (c :: w1) Ha H1).
  - apply andb_true_iff in Hh. destruct Hh as [Ha Hb]. destruct Hd as [Hd|Hd]; [apply (IHa w Ha Hd)|apply (IHb w Hb Hd)].
  - destruct Hd as [|w v Hw Hd Hs]; [exact I|]. specialize (IHa w Hh Hd). destruct w; [contradiction|exact IHa].
  - apply (IHa w Hh Hd).
Qed.
Lemma starts_out_none r pre c s : starts_out r = true -> alpha c = true -> match_at r pre (c :: s) = None.
Proof.
  intros H Hc. unfold starts_out in H. apply andb_true_iff in H. destruct H as [H1 H2]. apply negb_true_iff in H2.
  destruct (match_at r pre (c :: s)) as [st|] eqn:E; [|reflexivity]. exfalso. apply match_at_sound in E.
  destruct E as (w & E & _ & Hd & _). pose proof (nullable_sound r w H2 Hd) as Hne. pose proof (ho_sound r w H1 Hd) as Hh.
  destruct w as [|d w]; [contradiction|]. injection E as <- _. congruence.
Qed.
Lemma sub_go_prefix r f ds : starts_out r = true -> forallb alpha ds = true -> forall pre s,
  sub_go r f O pre (ds ++ s) = ds ++ sub_go r f O (rev ds ++ pre) s.
Proof.
  intro H. induction ds as [|c ds IH]; intros Hd pre s; [reflexivity|]. cbn [forallb] in Hd. apply andb_true_iff in Hd. destruct Hd as [Hc Hd].
  cbn [app]. rewrite sub_go_none by (apply starts_out_none; assumption). rewrite IH by exact Hd. cbn [rev]. rewrite <- app_assoc. reflexivity.
Qed.
End Heads.

(** Patterns that do not look at what precedes *)
Fixpoint forward (r : regex) : bool :=
  match r with
  | RSeq a b | RAlt a b => forward a && forward b
  | RStar _ a | RGrp _ a => forward a
  | RBol | RBehind _ _ => false
  | _ => true
  end.
Definition same (a b : mst) : Prop := after a = after b /\ caps a = caps b.
Lemma Forall2_flat_map {A B} (R : A -> A -> Prop) (S : B -> B -> Prop) (f g : A -> list B) l l' :
  Forall2 R l l' -> (forall x y, R x y -> Forall2 S (f x) (g y)) -> Forall2 S (flat_map f l) (flat_map g l').
Proof. intros F H. induction F; cbn; [constructor|]. apply Forall2_app; auto. Qed.
Lemma same_star m g : (forall a b, same a b -> Forall2 same (m a) (m b)) ->
  forall f a b, same a b -> Forall2 same (star_matches m g f a) (star_matches m g f b).
Proof.
  intro Hm. induction f as [|f IH]; intros a b H; cbn [star_matches]; [constructor; [exact H|constructor]|].
  assert (G : Forall2 same (flat_map (star_matches m g f) (filter (fun st' => Nat.ltb (length (after st')) (length (after a))) (m a)))
    (flat_map (star_matches m g f) (filter (fun st' => Nat.ltb (length (after st')) (length (after b))) (m b)))).
  { apply Forall2_flat_map with (R := same); [|exact IH]. pose proof (Hm a b H) as F. destruct H as [H1 _]. rewrite H1.
    induction F as [|x y l l' Hxy F IHF]; cbn [filter]; [constructor|]. destruct Hxy as [E1 E2]. rewrite E1.
    destruct (length (after y) <? length (after b))%nat; [constructor; [split; assumption|exact IHF]|exact IHF]. }
  destruct g.
  - apply Forall2_app; [exact G|]. constructor; [exact H|constructor].
  - constructor; [exact H|exact G].
Qed.

Lemma same_matches r : forward r = true -> forall a b, same a b -> Forall2 same (matches r a) (matches r b).
Proof.
  induction r as [|k|a IHa b IHb|a IHa b IHb|g a IHa|n a IHa| | |q k|q k]; intros Hf x y Hxy; cbn [forward] in Hf; cbn [matches]; try discriminate.
  - constructor; [exact Hxy|constructor].
  - destruct Hxy as [E1 E2]. rewrite E1, E2. destruct (after y) as [|c s]; [constructor|]. destruct (cls_in k c); [|constructor].
    constructor; [split; reflexivity|constructor].
  - apply andb_true_iff in Hf. destruct Hf as [Ha Hb]. apply Forall2_flat_map with (R := same); auto.
  - apply andb_true_iff in Hf. destruct Hf as [Ha Hb]. apply Forall2_app; auto.
  - assert (E := proj1 Hxy). rewrite E. apply same_star; auto.
  - assert (E := proj1 Hxy). rewrite E. pose proof (IHa Hf x y Hxy) as F. clear IHa Hxy E.
    induction F as [|x1 y1 l l' [E1 E2] F IHF]; cbn; [constructor|]. constructor; [|exact IHF]. split; cbn; [exact E1|rewrite E1, E2; reflexivity].
  - assert (E := proj1 Hxy). rewrite E. destruct (at_end (after y)); constructor; [exact Hxy|constructor].
  - assert (E := proj1 Hxy). rewrite E. match goal with |- context [Bool.eqb ?p ?q] => destruct (Bool.eqb p q) end; constructor; [exact Hxy|constructor].
Qed.
Lemma sub_go_forward r f : forward r = true -> forall s k pre pre', sub_go r f k pre s = sub_go r f k pre' s.
Proof.
  intro Hf. induction s as [|c s IH]; intros k pre pre'; [reflexivity|]. cbn [sub_go]. destruct k as [|k]; [|apply IH].
  unfold match_at. assert (S0 : same (MSt pre (c :: s) []) (MSt pre' (c :: s) [])) by (split; reflexivity).
  pose proof (same_matches r Hf _ _ S0) as F. destruct F as [|x y l l' [E1 E2] F]; cbn [hd_error].
  - f_equal. apply IH.
  - rewrite E1, E2. destruct (length (c :: s) - length (after y))%nat; f_equal; apply IH.
Qed.
(** Leading text in which no match starts is copied. *)
Lemma re_sub_prefix alpha r t ds s : starts_out alpha r = true -> forward r = true -> forallb alpha ds = true ->
  re_sub r t (ds ++ s) = ds ++ re_sub r t s.
Proof.
  intros H1 H2 H3. unfold re_sub, re_sub_fun. rewrite (sub_go_prefix alpha) by assumption. f_equal. apply sub_go_forward. exact H2.
Qed.
Lemma replace_prefix (alpha : N -> bool) old new ds s :
  match old with c :: _ => alpha c = false | [] => False end -> forallb alpha ds = true ->
  replace old new (ds ++ s) = ds ++ replace old new s.
Proof.
  intros Ho Hd. destruct old as [|o old]; [contradiction|]. unfold replace.
  induction ds as [|c ds IH]; [reflexivity|]. cbn [forallb] in Hd. apply andb_true_iff in Hd. destruct Hd as [Hc Hd].
  cbn [app replace_go]. cbn [starts_with]. destruct (N.eqb_spec o c) as [->|_]; [congruence|]. cbn [andb]. rewrite IH by exact Hd. reflexivity.
Qed.
Lemma search_prefix alpha r ds s : starts_out alpha r = true -> forward r = true -> forallb alpha ds = true ->
  re_test r (ds ++ s) = re_test r s.
Proof.
  intros H1 H2 H3. unfold re_test, re_search.
  assert (G : forall p q t, match search_from r p t with Some _ => true | None => false end = match search_from r q t with Some _ => true | None => false end).
  { intros p q t; revert p q; induction t as [|c t IH]; intros p q; cbn [search_from]; unfold match_at;
      [destruct (same_matches r H2 (MSt p [] []) (MSt q [] []) (conj eq_refl eq_refl))
      |destruct (same_matches r H2 (MSt p (c :: t) []) (MSt q (c :: t) []) (conj eq_refl eq_refl))]; cbn [hd_error]; auto. }
  generalize (@nil N) at 1 as p. induction ds as [|c ds IH]; intro p; [apply G|]. cbn [forallb] in H3. apply andb_true_iff in H3.
  cbn [app search_from]. rewrite (starts_out_none alpha) by tauto. apply IH. tauto.
Qed.
