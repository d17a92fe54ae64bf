(** The recursion of is_equiv ends. *)
From Coq Require Import String List NArith ZArith Bool Lia Arith Permutation.
From Verif Require Import PyStr PyStrTheory NumTheory Regex RegexTheory Normalize NormShape NormClean Monad MonadTheory Split SplitTheory Eval Weight.
Import ListNotations.
Local Open Scope N_scope.
Local Arguments N.eqb : simpl never. Local Arguments N.add : simpl never. Local Arguments N.leb : simpl never.

(** ** Splitting makes lighter *)
Lemma strip_commas_light s : strip_commas s = s \/ total (strip_commas s) < total s.
Proof.
  unfold strip_commas, re_sub_fun. apply (sub_go_ind _ _ (fun _ s o => o = s \/ total o < total s)).
  - left; reflexivity.
  - intros pre c t o [->|H]; [left; reflexivity|right]. cbn [total]. lia.
  - intros pre w t o st _ _ _ Hd _ Ho. right. rewrite !total_app.
    assert (In 44 w) as Hi by (apply needs_lit_sound with thousands_re; [reflexivity|exact Hd]).
    pose proof (total_remove 44 w Hi ltac:(reflexivity)). destruct Ho as [->|Ho]; lia.
Qed.
Lemma strip_commas_le s : total (strip_commas s) <= total s.
Proof. destruct (strip_commas_light s) as [->|H]; lia. Qed.
Lemma mid_light s : (2 < length s)%nat -> 0 < weight (first_cp s) -> total (mid s) < total s.
Proof.
  destruct s as [|x s]; [cbn; lia|]. cbn [first_cp hd]. intros _ Hw. pose proof (total_mid (x :: s)) as H. unfold mid in *. cbn [tl] in *.
  assert (G : forall l, total (removelast l) <= total l).
  { induction l as [|y l IH]; [cbn; lia|]. destruct l as [|z l]; [cbn; lia|]. change (removelast (y :: z :: l)) with (y :: removelast (z :: l)).
    rewrite !(total_cons y). lia. }
  specialize (G s). rewrite total_cons. lia.
Qed.
Lemma unwrap_light rm s : fst (unwrap rm s) = s \/ total (fst (unwrap rm s)) < total s.
Proof.
  unfold unwrap. destruct (rm && Nat.ltb 2 (length s)) eqn:E; [|left; reflexivity]. apply andb_true_iff in E. destruct E as [_ E]. apply Nat.ltb_lt in E.
  assert (M : forall a, first_cp s =? a = true -> 0 < weight a -> total (mid s) < total s).
  { intros a Ha Hw. apply N.eqb_eq in Ha. apply mid_light; [exact E|rewrite Ha; exact Hw]. }
  destruct (first_cp s =? 91) eqn:E1; destruct (last_cp s =? 93); cbn [andb fst]; try (right; apply (M 91 E1); reflexivity);
  destruct (first_cp s =? 40) eqn:E2; destruct (last_cp s =? 41); cbn [andb fst]; try (right; apply (M 40 E2); reflexivity);
  destruct (first_cp s =? 123) eqn:E3; destruct (last_cp s =? 125); cbn [andb fst]; try (right; apply (M 123 E3); reflexivity); left; reflexivity.
Qed.
Lemma split_commas_light s : forall cnt stack x, In x (split_commas s cnt stack) -> total x <= total stack + total s.
Proof.
  assert (S : forall stack, total (strip (rev stack)) <= total stack) by (intro; eapply N.le_trans; [apply total_strip_by|rewrite total_rev; lia]).
  induction s as [|c s IH]; intros cnt stack x H; cbn [split_commas] in H.
  - destruct stack as [|y r]; [contradiction|]. destruct H as [<-|[]]. specialize (S (y :: r)). cbn [total] in *. lia.
  - destruct ((c =? 44) && (cnt =? 0)%Z).
    + destruct H as [<-|H]; [specialize (S stack); lia|]. apply IH in H. cbn [total] in *. lia.
    + apply IH in H. cbn [total] in *. lia.
Qed.
(** Two or more pieces: a comma is gone *)
Lemma split_commas_two s : forall cnt stack, (2 <= length (split_commas s cnt stack))%nat ->
  forall x, In x (split_commas s cnt stack) -> total x < total stack + total s.
Proof.
  assert (S : forall stack, total (strip (rev stack)) <= total stack) by (intro; eapply N.le_trans; [apply total_strip_by|rewrite total_rev; lia]).
  induction s as [|c s IH]; intros cnt stack L x H; cbn [split_commas] in *.
  - destruct stack; cbn in L; lia.
  - destruct ((c =? 44) && (cnt =? 0)%Z) eqn:E.
    + apply andb_true_iff in E. destruct E as [E _]. apply N.eqb_eq in E. subst c. rewrite total_cons. change (weight 44) with 1.
      destruct H as [<-|H]; [specialize (S stack); lia|]. apply split_commas_light in H. cbn [total] in H. lia.
    + apply IH in H; [|exact L]. cbn [total] in *. lia.
Qed.
Definition lighter (s : pystr) (r : splitted) : Prop :=
  match r with SStr t => t = s \/ total t < total s | SSeq _ l => Forall (fun x => total x < total s) l end.
Lemma split_tuple_light s o r : split_tuple s o = Ret r -> lighter s r.
Proof.
  unfold split_tuple. pose proof (strip_commas_light s) as L. set (e := strip_commas s) in *. destruct (scan e 0 true) as [cnt rm].
  destruct (negb _); [discriminate|]. pose proof (unwrap_light rm e) as U. destruct (unwrap rm e) as [e' k]. cbn [fst] in U.
  pose proof (split_commas_two e' 0%Z []) as T. destruct (split_commas e' 0 []) as [|x [|y l]]; intros [= <-]; cbn [lighter].
  1, 2: destruct U as [->|U], L as [->|L]; auto; right; lia.
  apply Forall_forall. intros z Hz. specialize (T ltac:(cbn; lia) z Hz). cbn [total] in T. assert (total e' <= total s); [|lia].
  destruct U as [->|U], L as [->|L]; lia.
Qed.
Definition lighter_cell (s : pystr) (c : cell) : Prop :=
  match c with CStr t => total t < total s | CRow l => Forall (fun x => total x < total s) l end.
Definition lighter_matrix (s : pystr) (r : matres) : Prop :=
  match r with MStr t => t = s \/ total t < total s | MRows l => Forall (lighter_cell s) l end.
Lemma split_on_light sep s x : In x (split_on sep s) -> total x <= total s.
Proof.
  unfold split_on. assert (G : forall s k cur, In x (split_go sep k s cur) -> total x <= total cur + total s).
  { clear s. induction s as [|c s IH]; intros k cur H; cbn [split_go] in H.
    - destruct H as [<-|[]]. rewrite total_rev. cbn. lia.
    - rewrite total_cons. destruct k as [|k]; [|apply IH in H; lia]. destruct (starts_with sep (c :: s)).
      + destruct H as [<-|H]; [rewrite total_rev; lia|apply IH in H; cbn [total] in H; lia].
      + apply IH in H. cbn [total] in H. lia. }
  intro H. apply G in H. cbn [total] in H. lia.
Qed.
Definition weak_cell (k : N) (c : cell) : Prop := match c with CStr t => total t <= k | CRow l => Forall (fun x => total x <= k) l end.
Lemma matrix_rows_light b : Forall (weak_cell (total b)) (matrix_rows b).
Proof.
  unfold matrix_rows. apply Forall_forall. intros c H. apply in_map_iff in H. destruct H as (row & <- & Hr). apply split_on_light in Hr.
  assert (R : forall x, In x (split_on [38] row) -> total x <= total b) by (intros x Hx; apply split_on_light in Hx; lia).
  destruct (split_on [38] row) as [|x [|y l]]; cbn [weak_cell]; [constructor|apply R; left; reflexivity|apply Forall_forall; exact R].
Qed.
Lemma finish_light s els : Forall (fun c => match c with CStr t => t = s \/ total t < total s | CRow l => Forall (fun x => total x < total s) l end) els ->
  (2 <= length els -> Forall (lighter_cell s) els)%nat -> lighter_matrix s (finish s els).
Proof.
  intros F F2. unfold finish. destruct els as [|c [|c' els]]; [left; reflexivity| |].
  - inversion F as [|? ? Hc _]; subst. destruct c as [t|l]; [exact Hc|]. destruct (check_dim _ _); [|left; reflexivity].
    cbn [lighter_matrix]. apply Forall_forall. intros x Hx. apply in_map_iff in Hx. destruct Hx as (y & <- & Hy). rewrite Forall_forall in Hc. apply Hc, Hy.
  - destruct c; (destruct (check_dim _ _); [apply F2; cbn; lia|left; reflexivity]).
Qed.
Lemma map_res_in {A B} (f : A -> res B) l ys : map_res f l = Ret ys -> forall y, In y ys -> exists x, In x l /\ f x = Ret y.
Proof.
  revert ys. induction l as [|x l IH]; intros ys H y Hy; cbn [map_res] in H.
  - injection H as <-. contradiction.
  - destruct (f x) as [z|e] eqn:E; [|discriminate]. destruct (map_res f l) as [zs|e] eqn:E2; [|discriminate]. injection H as <-.
    destruct Hy as [<-|Hy]; [exists x; split; [left; reflexivity|exact E]|]. destruct (IH zs eq_refl y Hy) as (x' & Hx & Hf). exists x'. split; [right; exact Hx|exact Hf].
Qed.
Lemma map_res_length {A B} (f : A -> res B) l ys : map_res f l = Ret ys -> length ys = length l.
Proof.
  revert ys. induction l as [|x l IH]; intros ys H; cbn [map_res] in H; [injection H as <-; reflexivity|].
  destruct (f x); [|discriminate]. destruct (map_res f l) as [zs|]; [|discriminate]. injection H as <-. cbn. rewrite (IH zs eq_refl). reflexivity.
Qed.
Lemma split_matrix_light s r : split_matrix s = Ret r -> lighter_matrix s r.
Proof.
  unfold split_matrix. destruct (re_search matrix_re s) as [st|] eqn:E.
  - intros [= <-].
    assert (G : total (grp 1 st) < total s).
    { rewrite anchored_search in E by reflexivity. apply hd_error_in in E. unfold matrix_re in E.
      apply in_rseq_cons in E. destruct E as (s1 & H1 & Hm). apply in_rseq_cons in Hm. destruct Hm as (s2 & H2 & Hm).
      apply in_rseq_cons in Hm. destruct Hm as (s3 & H3 & Hm). apply in_rseq_cons in Hm. destruct Hm as (s4 & H4 & Hm).
      apply in_rseq_cons in Hm. destruct Hm as (s5 & H5 & Hm). pose proof (group_kept 1 (rseq [rs "\end{"; ROpt letter; rs "matrix}"; REol]) eq_refl _ _ Hm) as K.
      destruct (consumed_grp 1 (RStar false (RChr CAny)) _ _ eq_refl H5) as (w & _ & E5 & G5 & _).
      destruct (consumed _ _ _ H1) as (w1 & _ & E1). destruct (consumed _ _ _ H2) as (w2 & D2 & E2). destruct (consumed _ _ _ H3) as (w3 & _ & E3).
      destruct (consumed _ _ _ H4) as (w4 & _ & E4). apply least_sound in D2. change (least (rs "\begin{")) with 11 in D2.
      unfold grp. rewrite K, G5. cbn [after] in E1. rewrite E1, E2, E3, E4, E5, !total_app. lia. }
    pose proof (matrix_rows_light (grp 1 st)) as F. apply finish_light; [|intros _]; (eapply Forall_impl; [|exact F]); intros [t|l]; cbn [weak_cell lighter_cell];
    intro H; try (right; lia); try lia; (eapply Forall_impl; [|exact H]; cbn; intros; lia).
  - destruct (split_tuple s (Some KList)) as [sp|e] eqn:Es; [|discriminate]. apply split_tuple_light in Es.
    set (rows := match sp with SStr s => [s] | SSeq _ l => l end).
    destruct (map_res _ rows) as [els|e] eqn:Em; [|discriminate]. intros [= <-].
    assert (R : forall c, In c (map cell_of els) -> exists row x, In row rows /\ lighter row x /\ c = cell_of x).
    { intros c Hc. apply in_map_iff in Hc. destruct Hc as (x & <- & Hx). destruct (map_res_in _ _ _ Em x Hx) as (row & Hr & Hf).
      apply split_tuple_light in Hf. eauto. }
    assert (W : forall c, In c (map cell_of els) -> exists row x, In row rows /\ lighter row x /\ c = cell_of x /\ (row = s \/ total row < total s)).
    { intros c Hc. destruct (R c Hc) as (row & x & Hr & Hx & ->). exists row, x. repeat split; auto. subst rows. destruct sp as [t|k l]; cbn [lighter] in Es.
      - destruct Hr as [<-|[]]. exact Es.
      - rewrite Forall_forall in Es. right. apply Es, Hr. }
    apply finish_light.
    + apply Forall_forall. intros c Hc. destruct (W c Hc) as (row & x & _ & Hx & -> & Hr). destruct x as [t|k l]; cbn [cell_of lighter] in *.
      * destruct Hx as [->|Hx]; [exact Hr|right]. destruct Hr as [->|Hr]; lia.
      * eapply Forall_impl; [|exact Hx]. cbn. intros y Hy. destruct Hr as [->|Hr]; lia.
    + intro L. rewrite map_length, (map_res_length _ _ _ Em) in L. apply Forall_forall. intros c Hc. destruct (R c Hc) as (row & x & Hr & Hx & ->).
      assert (total row < total s).
      { subst rows. destruct sp as [t|k l]; [cbn in L; lia|]. cbn [lighter] in Es. rewrite Forall_forall in Es. apply Es, Hr. }
      destruct x as [t|k l]; cbn [cell_of lighter lighter_cell] in *; [destruct Hx as [->|Hx]; lia|].
      eapply Forall_impl; [|exact Hx]. cbn. intros; lia.
Qed.

(** ** Two recursive calls that agree on lighter pairs *)
Section Agree.
Variable W : World.
Notation St := (St W).
Definition same {A} (m m' : M St A) : Prop := forall st, m st = m' st.
Lemma same_refl {A} (m : M St A) : same m m.
Proof. intro; reflexivity. Qed.
Lemma same_bind {A B} (m m' : M St A) (f f' : A -> M St B) : same m m' -> (forall a, same (f a) (f' a)) -> same (bind m f) (bind m' f').
Proof. intros Hm Hf st. unfold bind. rewrite Hm. destruct (m' st) as [[a|e] s]; [apply Hf|reflexivity]. Qed.
Lemma same_try {A} (m m' h : M St A) : same m m' -> same (try_except m h) (try_except m' h).
Proof. intros Hm st. unfold try_except. rewrite Hm. reflexivity. Qed.
Lemma same_lift {A B} (r : res A) (f f' : A -> M St B) : (forall a, r = Ret a -> same (f a) (f' a)) -> same (bind (lift W r) f) (bind (lift W r) f').
Proof. intros H st. unfold bind, lift. destruct r as [a|e]; [apply H; reflexivity|reflexivity]. Qed.
Variables rec rec' : pystr -> pystr -> M St bool.
Variable k : N.
Hypothesis agree : forall x y, total x + total y < k -> same (rec x y) (rec' x y).
Variables a b : N.
Hypothesis Hab : a + b <= k.
Definition below (n : N) (x : pystr) : Prop := total x < n.

Lemma same_zip l1 : Forall (below a) l1 -> forall l2, Forall (below b) l2 -> same (all_zip W rec l1 l2) (all_zip W rec' l1 l2).
Proof.
  unfold below. induction 1 as [|x l1 Hx _ IH]; intros l2 F2; [apply same_refl|]. destruct F2 as [|y l2 Hy F2]; [apply same_refl|]. cbn [all_zip].
  apply same_bind; [apply agree; lia|]. intros []; [apply IH, F2|apply same_refl].
Qed.
Lemma same_find g gvs : total g < a -> Forall (fun p => below b (fst p)) gvs -> same (find_match W rec g gvs) (find_match W rec' g gvs).
Proof.
  unfold below. intros Hg. induction 1 as [|[v used] gvs Hv _ IH]; [apply same_refl|]. cbn [find_match fst] in *.
  apply same_bind; [destruct used; [apply same_refl|apply agree; lia]|]. intros []; [apply same_refl|]. apply same_bind; [exact IH|intro; apply same_refl].
Qed.
Lemma find_keeps_below (r : pystr -> pystr -> M St bool) g gvs st x s : Forall (fun p => below b (fst p)) gvs -> find_match W r g gvs st = (Ret x, s) -> Forall (fun p => below b (fst p)) (snd x).
Proof.
  intro F. revert st x s. induction F as [|[v used] gvs Hv F IH]; intros st x s H; cbn [find_match] in H.
  - injection H as <- <-. constructor.
  - apply bind_inv in H. destruct H as (c & s1 & _ & H). destruct c.
    + injection H as <- <-. constructor; assumption.
    + apply bind_inv in H. destruct H as (y & s2 & Hy & H). injection H as <- <-. constructor; [exact Hv|]. eapply IH, Hy.
Qed.
Lemma same_greedy gts : Forall (below a) gts -> forall gvs, Forall (fun p => below b (fst p)) gvs -> same (greedy W rec gts gvs) (greedy W rec' gts gvs).
Proof.
  induction 1 as [|g gts Hg _ IH]; intros gvs F; [apply same_refl|]. cbn [greedy]. intro st. unfold bind at 1 3.
  rewrite (same_find g gvs Hg F st). destruct (find_match W rec' g gvs st) as [[x|e] s] eqn:E; [|reflexivity].
  apply same_bind; [apply IH; eapply find_keeps_below; [exact F|exact E]|intro; apply same_refl].
Qed.
End Agree.

Section Is_equiv.
Variable W : World.
Notation St := (St W).
Variables rec rec' : pystr -> pystr -> M St bool.
Variable k : N.
Hypothesis agree : forall x y, total x + total y < k -> same W (rec x y) (rec' x y).

Lemma set_iter_below n l : Forall (below n) l -> Forall (below n) (set_iter W l).
Proof.
  rewrite !Forall_forall. intros H x Hx. apply H. apply (Permutation_in _ (set_iter_ok W l)) in Hx. apply nodup_In in Hx. exact Hx.
Qed.
Lemma same_elems gt gv a b : total gt + total gv <= k -> lighter gt a -> lighter gv b -> same W (compare_elems W rec a b) (compare_elems W rec' a b).
Proof.
  intros Hk La Lb. unfold compare_elems. destruct (negb _ && negb _); [apply same_refl|]. destruct a as [s1|k1 l1], b as [s2|k2 l2]; try apply same_refl.
  destruct (negb _); [apply same_refl|]. cbn [lighter] in *.
  destruct k1; [apply same_zip with k (total gt) (total gv); assumption|apply same_zip with k (total gt) (total gv); assumption|].
  apply same_greedy with k (total gt) (total gv); auto; [apply set_iter_below, La|].
  apply Forall_forall. intros p Hp. apply in_map_iff in Hp. destruct Hp as (x & <- & Hx). cbn [fst].
  pose proof (set_iter_below _ _ Lb) as F. rewrite Forall_forall in F. apply F, Hx.
Qed.
Lemma same_tuple gt gv : total gt + total gv <= k -> same W (possible_tuple W rec gt gv) (possible_tuple W rec' gt gv).
Proof.
  intros Hk. unfold possible_tuple. apply same_lift. intros a Ea. apply same_lift. intros b Eb. apply split_tuple_light in Ea, Eb.
  destruct a as [s1|k1 l1], b as [s2|k2 l2]; try (apply same_bind; [apply same_elems with gt gv; assumption|intro; apply same_refl]).
  destruct (str_eqb s1 gt && str_eqb s2 gv) eqn:E; [apply same_refl|]. apply same_bind; [|intro; apply same_refl]. apply agree. cbn [lighter] in *.
  destruct Ea as [->|Ea], Eb as [->|Eb]; try lia. rewrite !str_eqb_refl in E. discriminate.
Qed.
Lemma same_rows gt gv l1 : total gt + total gv <= k -> Forall (lighter_cell gt) l1 -> forall l2, Forall (lighter_cell gv) l2 ->
  same W (all_rows W rec l1 l2) (all_rows W rec' l1 l2).
Proof.
  intro Hk. induction 1 as [|c1 l1 H1 _ IH]; intros l2 F2; [apply same_refl|]. destruct F2 as [|c2 l2 H2 F2]; [apply same_refl|]. cbn [all_rows].
  destruct c1 as [s1|r1], c2 as [s2|r2]; try apply same_refl; cbn [lighter_cell] in *.
  - apply same_bind; [apply agree; lia|]. intros []; [apply IH, F2|apply same_refl].
  - destruct (negb _); [apply same_refl|]. apply same_bind; [apply same_zip with k (total gt) (total gv); assumption|]. intros []; [apply IH, F2|apply same_refl].
Qed.
Lemma same_matrix gt gv : total gt + total gv <= k -> same W (possible_matrix W rec gt gv) (possible_matrix W rec' gt gv).
Proof.
  intros Hk. unfold possible_matrix. apply same_lift. intros a Ea. apply same_lift. intros b Eb. apply split_matrix_light in Ea, Eb.
  destruct a as [s1|l1], b as [s2|l2]; try apply same_refl; cbn [lighter_matrix] in *.
  - destruct (str_eqb s1 gt && str_eqb s2 gv) eqn:E; [apply same_refl|]. apply same_bind; [|intro; apply same_refl]. apply agree.
    destruct Ea as [->|Ea], Eb as [->|Eb]; try lia. rewrite !str_eqb_refl in E. discriminate.
  - destruct (negb _); [apply same_refl|]. apply same_bind; [apply same_rows with gt gv; assumption|intro; apply same_refl].
Qed.
Lemma same_latex gt gv : total gt + total gv <= k -> same W (is_latex_equiv W rec gt gv) (is_latex_equiv W rec' gt gv).
Proof.
  intro Hk. unfold is_latex_equiv. destruct gv as [|c gv]; [apply same_refl|]. apply same_bind; [apply same_refl|intro p].
  apply same_bind; [destruct (fst p); [apply same_refl|apply same_tuple, Hk]|intro p2].
  apply same_bind; [|intro; apply same_refl]. destruct (_ && _); [apply same_matrix, Hk|apply same_refl].
Qed.
Lemma same_any_given g l : (forall v, In v l -> total g + total v <= k) -> same W (any_given W (is_latex_equiv W rec) g l) (any_given W (is_latex_equiv W rec') g l).
Proof.
  induction l as [|v l IH]; intro H; [apply same_refl|]. cbn [any_given]. apply same_bind; [apply same_latex, H; left; reflexivity|].
  intros []; [apply same_refl|]. apply IH. intros; apply H; right; assumption.
Qed.
Lemma same_any_pair l1 l2 : (forall x y, In x l1 -> In y l2 -> total x + total y <= k) ->
  same W (any_pair W (is_latex_equiv W rec) l1 l2) (any_pair W (is_latex_equiv W rec') l1 l2).
Proof.
  induction l1 as [|g l1 IH]; intro H; [apply same_refl|]. cbn [any_pair]. apply same_bind; [apply same_any_given; intros; apply H; [left; reflexivity|assumption]|].
  intros []; [apply same_refl|]. apply IH. intros; apply H; [right|]; assumption.
Qed.
Lemma readings_light n x : light n x -> forall s, In s (readings W x) -> total s <= n.
Proof.
  destruct x as [t|l]; cbn [light readings]; intros H s Hs; [destruct Hs as [<-|[]]; exact H|].
  apply (Permutation_in _ (set_iter_ok W l)) in Hs. apply nodup_In in Hs. rewrite Forall_forall in H. apply H, Hs.
Qed.
Lemma same_norm gt gv a b : total gt + total gv <= k -> light (total gt) a -> light (total gv) b -> same W (compare_norm W rec a b) (compare_norm W rec' a b).
Proof.
  intros Hk La Lb. unfold compare_norm. apply same_try.
  assert (P : same W (any_pair W (is_latex_equiv W rec) (readings W a) (readings W b)) (any_pair W (is_latex_equiv W rec') (readings W a) (readings W b))).
  { apply same_any_pair. intros x y Hx Hy. apply (readings_light _ _ La) in Hx. apply (readings_light _ _ Lb) in Hy. lia. }
  destruct a as [s1|l1], b as [s2|l2]; try exact P. cbn [light] in *. apply same_latex. lia.
Qed.
Hypothesis light_ints : forall x, total (int_str W x) <= total x.
Lemma same_body gt gv : total gt + total gv <= k -> same W (is_equiv_body W rec gt gv) (is_equiv_body W rec' gt gv).
Proof.
  intro Hk. unfold is_equiv_body. destruct (str_eqb _ _); [apply same_refl|].
  pose proof (light_normalize _ light_ints gt) as La. pose proof (light_normalize _ light_ints gv) as Lb.
  pose proof (same_norm gt gv _ _ Hk La Lb) as N.
  destruct (string_normalize (int_str W) gt) as [s1|l1], (string_normalize (int_str W) gv) as [s2|l2]; try exact N.
  destruct (str_eqb s1 s2); [apply same_refl|exact N].
Qed.
End Is_equiv.

(** ** Enough depth *)
Definition depth (gt gv : pystr) : nat := S (N.to_nat (total gt + total gv)).
(** What happens at the bottom of [n] nested calls does not matter. *)
Lemma iter_enough W (bot bot' : pystr -> pystr -> M (St W) bool) : (forall x, total (int_str W x) <= total x) -> forall k n m gt gv,
  (N.to_nat (total gt + total gv) < k)%nat -> (k <= n)%nat -> (k <= m)%nat ->
  same W (Nat.iter n (is_equiv_body W) bot gt gv) (Nat.iter m (is_equiv_body W) bot' gt gv).
Proof.
  intro L. induction k as [|k IH]; intros n m gt gv H Hn Hm; [lia|]. destruct n as [|n]; [lia|]. destruct m as [|m]; [lia|]. cbn [Nat.iter nat_rect].
  apply same_body with (total gt + total gv); [|exact L|lia]. intros x y Hxy. apply IH; lia.
Qed.
Lemma str_iter W n : is_equiv_str W n = Nat.iter n (is_equiv_body W) (fun _ _ => raise RecursionError).
Proof. induction n as [|n IH]; [reflexivity|]. cbn [is_equiv_str Nat.iter nat_rect]. rewrite IH. reflexivity. Qed.
Lemma weight_400 c : weight c <= 400.
Proof. destruct (N.eq_dec c 304) as [->|H]; [vm_compute; discriminate|]. pose proof (weight_le c H). lia. Qed.
Lemma total_length s : total s <= 400 * N.of_nat (length s).
Proof. induction s as [|c s IH]; [cbn; lia|]. cbn [total length]. rewrite Nat2N.inj_succ. pose proof (weight_400 c). lia. Qed.

(** *** What the back end prints for an integer literal *)
Definition plain (s : pystr) : Prop := forall c, In c s -> In c (u "0123456789+-*/. ").
(** Either it fails (the text stays), or a number is printed, or the text has an
    "e", read as Euler's number and printed once as "E". *)
Definition prints_numbers (W : World) : Prop := forall x,
  int_str W x = x \/ plain (int_str W x) \/
  exists p q, int_str W x = p ++ [69] ++ q /\ plain p /\ plain q /\ In 101 x.
Lemma total_plain s : plain s -> total s = 0.
Proof.
  unfold plain. intro H. induction s as [|c s IH]; [reflexivity|]. cbn [total]. rewrite IH by (intros; apply H; right; assumption).
  specialize (H c (or_introl eq_refl)).
  assert (forall l, forallb (fun c => weight c =? 0) l = true -> In c l -> weight c = 0) as G by (intros l Hl Hc; rewrite forallb_forall in Hl; apply N.eqb_eq, Hl, Hc).
  rewrite (G (u "0123456789+-*/. ") ltac:(vm_compute; reflexivity) H). reflexivity.
Qed.
Lemma total_in c s : In c s -> weight c <= total s.
Proof. induction s as [|x s IH]; intros []; cbn [total]; [subst|specialize (IH H)]; lia. Qed.
Lemma prints_light W : prints_numbers W -> forall x, total (int_str W x) <= total x.
Proof.
  intros H x. destruct (H x) as [->|[P|(p & q & -> & Hp & Hq & Hi)]]; [lia|rewrite (total_plain _ P); lia|].
  rewrite !total_app, (total_plain _ Hp), (total_plain _ Hq). change (total [69]) with 2. apply total_in in Hi. change (weight 101) with 2 in Hi. lia.
Qed.

(** Nesting of calls that is never reached *)
Definition limit (gt gv : pystr) : nat := S (400 * (length gt + length gv)).
Lemma bottom_unreached W gt gv bot n st : prints_numbers W -> (limit gt gv <= n)%nat ->
  Nat.iter n (is_equiv_body W) bot gt gv st = is_equiv_str W (limit gt gv) gt gv st.
Proof.
  intros H Hn. pose proof (prints_light W H) as L. rewrite str_iter. pose proof (total_length gt). pose proof (total_length gv).
  apply (iter_enough W _ _ L (limit gt gv)); unfold limit in *; lia.
Qed.
Lemma same_any_depth W gt gv n st : prints_numbers W -> (limit gt gv <= n)%nat -> is_equiv_str W n gt gv st = is_equiv_str W (limit gt gv) gt gv st.
Proof. intros H Hn. rewrite (str_iter W n). apply bottom_unreached; assumption. Qed.
(** The recursion equation has one solution *)
Lemma one_solution W F gt gv st : prints_numbers W -> (forall x y, same W (F x y) (is_equiv_body W F x y)) ->
  F gt gv st = is_equiv_str W (limit gt gv) gt gv st.
Proof.
  intros H HF. rewrite <- (bottom_unreached W gt gv F (limit gt gv) st H (Nat.le_refl _)).
  assert (G : forall n x y, same W (F x y) (Nat.iter n (is_equiv_body W) F x y)).
  { induction n as [|n IH]; intros x y s; [reflexivity|]. cbn [Nat.iter nat_rect]. rewrite HF. pose proof (prints_light W H) as L.
    apply (same_body W F (Nat.iter n (is_equiv_body W) F) (total x + total y)); [intros; apply IH|exact L|lia]. }
  apply G.
Qed.
Lemma solution_exists W : prints_numbers W -> let F := fun gt gv => is_equiv_str W (limit gt gv) gt gv in
  forall gt gv, same W (F gt gv) (is_equiv_body W F gt gv).
Proof.
  intros H F gt gv. unfold F at 1. pose proof (prints_light W H) as L. pose proof (total_length gt) as T1. pose proof (total_length gv) as T2.
  intro st. rewrite <- (same_any_depth W gt gv (S (limit gt gv)) st H) by lia. cbn [is_equiv_str].
  apply (same_body W (is_equiv_str W (limit gt gv)) F (total gt + total gv)); [|exact L|lia].
  intros x y Hxy s. unfold F. rewrite !str_iter. pose proof (total_length x). pose proof (total_length y).
  apply (iter_enough W _ _ L (S (N.to_nat (total x + total y)))); unfold limit; lia.
Qed.
