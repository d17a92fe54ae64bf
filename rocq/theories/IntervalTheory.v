(** What [_str_to_interval] computes. *)
From Coq Require Import String List NArith ZArith QArith Qabs Qround Bool Lia.
From Verif Require Import PyStr PyStrTheory RegexTheory SplitTheory NormClean Monad MonadTheory ParserTheory Interval.
Import ListNotations.
Local Open Scope mon_scope.
Local Open Scope N_scope.

(** ** Splitting *)
Definition free (sep s : pystr) : Prop := ~ infix sep s.
Lemma free_mid sep a c b : free sep a -> free sep b -> ~ In c sep -> free sep (a ++ c :: b).
Proof.
  intros Ha Hb Hc (p & q & E). destruct (app_eq_app _ _ _ _ E) as (r & [[E1 E2]|[E1 E2]]).
  - destruct (app_eq_app _ _ _ _ (eq_sym E2)) as (t & [[F1 F2]|[F1 F2]]).
    + subst r. apply Ha. exists p, t. rewrite E1. reflexivity || (rewrite <- app_assoc; reflexivity).
    + destruct t as [|d t].
      * rewrite app_nil_r in F1. subst r. apply Ha. exists p, []. rewrite app_nil_r. exact E1.
      * injection F2 as <- F2. apply Hc. rewrite F1. apply in_or_app. right; left; reflexivity.
  - destruct r as [|d r].
    + cbn in E2. destruct sep as [|d sep]; [apply Hb; exists [], b; reflexivity|].
      cbn in E2. injection E2 as <- _. apply Hc. left; reflexivity.
    + injection E2 as <- E2. apply Hb. exists r, q. exact E2.
Qed.
Lemma clean_end sep x c : free sep (x ++ [c]) -> ~ In c sep -> clean sep (x ++ [c]).
Proof.
  intros Hf Hc p q E. destruct (app_eq_app _ _ _ _ E) as (r & [[E1 E2]|[E1 E2]]).
  - destruct (app_eq_app _ _ _ _ E2) as (t & [[F1 F2]|[F1 F2]]).
    + destruct r as [|d0 r0] eqn:Er.
      * cbn in F1. subst t. rewrite <- (app_nil_r sep) in F2 at 1. apply app_inv_head in F2. auto.
      * rewrite <- Er in *. destruct (exists_last (l := r)) as (r' & d & Er'); [rewrite Er; discriminate|]. rewrite Er', app_assoc in E1.
        apply app_inj_tail in E1. destruct E1 as [_ <-]. exfalso. apply Hc. rewrite F1, Er'. rewrite <- app_assoc. apply in_or_app. right; left; reflexivity.
    + exfalso. apply Hf. exists p, t. rewrite E1, F1. reflexivity.
  - apply (f_equal (@length N)) in E2. rewrite !app_length in E2. destruct q; [reflexivity|cbn in E2; lia].
Qed.

Lemma free_nil sep : sep <> [] -> free sep [].
Proof. intros H (a & b & E). destruct a; [|discriminate]. destruct sep; [contradiction|discriminate]. Qed.
Lemma free_cons sep c s : free sep s -> ~ In c sep -> sep <> [] -> free sep (c :: s).
Proof. intros H Hc Hs. apply (free_mid sep [] c s (free_nil sep Hs) H Hc). Qed.

(** [x] ends in a character that does not occur in [sep]. *)
Definition closed (sep x : pystr) : Prop := free sep x /\ exists y c, x = y ++ [c] /\ ~ In c sep.
Lemma closed_clean sep x : closed sep x -> clean sep x.
Proof. intros (H & y & c & -> & Hc). apply clean_end; assumption. Qed.
Lemma split_join sep l : sep <> [] -> l <> [] -> Forall (closed sep) l -> split_on sep (join sep l) = l.
Proof.
  intros Hs Hl F. apply split_on_join; [exact Hs|exact Hl|eapply Forall_impl; [|exact F]; apply closed_clean|].
  assert (H : free sep (last l [])).
  { rewrite Forall_forall in F. apply F. clear F. destruct l as [|x l]; [contradiction|]. clear. revert x. induction l as [|y l IH]; intro x; [left; reflexivity|right; apply IH]. }
  intros p q E. apply H. exists p, q. exact E.
Qed.
Lemma free_join sep a sep' l : free sep a -> sep <> [] -> (forall x y, In x l -> free sep y -> free sep (y ++ x)) -> free sep sep' -> 
  (forall x y z, In x l -> free sep y -> free sep z -> free sep (y ++ x ++ z)) ->
  free sep (a ++ join sep' l).
Proof.
  intros Ha Hs Hl Hs' Hm. revert a Ha. induction l as [|x l IH]; intros a Ha; [rewrite app_nil_r; exact Ha|].
  destruct l as [|y l]; [apply Hl; [left; reflexivity|exact Ha]|].
  change (join sep' (x :: y :: l)) with (x ++ sep' ++ join sep' (y :: l)). apply Hm; [left; reflexivity|exact Ha|].
  apply IH; [intros; apply Hl; [right|]; assumption|intros; apply Hm; [right| |]; assumption|exact Hs'].
Qed.
Lemma contains_free p s : contains p s = false <-> free p s.
Proof. unfold free. rewrite infix_contains. destruct (contains p s); split; congruence || tauto || (intro H; exfalso; apply H; reflexivity) || auto. Qed.
Lemma either_join sign command sep l : (sep = [sign] \/ sep = command) -> command <> [] -> ~ In sign command -> l <> [] ->
  Forall (closed [sign]) l -> Forall (closed command) l ->
  split_either [sign] command (join sep l) = l.
Proof.
  intros Hsep Hc Hn Hl F1 F2. unfold split_either.
  assert (S1 : forall l', Forall (closed [sign]) l' -> ~ In sign (join command l')).
  { induction l' as [|x l' IH]; intros G H; [destruct H|]. inversion G as [|? ? Gx Gl]; subst.
    assert (Nx : ~ In sign x). { intro Hi. apply (proj1 Gx). apply in_split in Hi. destruct Hi as (a & b & ->). exists a, b. reflexivity. }
    destruct l' as [|y l']; [exact (Nx H)|]. change (join command (x :: y :: l')) with (x ++ command ++ join command (y :: l')) in H.
    rewrite !in_app_iff in H. destruct H as [H|[H|H]]; [exact (Nx H)|exact (Hn H)|exact (IH Gl H)]. }
  destruct Hsep as [->| ->].
  - destruct l as [|x [|y l]]; [contradiction| |].
    + cbn [join]. destruct (contains [sign] x) eqn:C.
      * exfalso. inversion F1 as [|? ? Gx]; subst. apply (proj1 Gx), infix_contains. exact C.
      * exact (split_join command [x] Hc Hl F2).
    + assert (contains [sign] (join [sign] (x :: y :: l)) = true) as ->.
      { apply contains_single. change (join [sign] (x :: y :: l)) with (x ++ [sign] ++ join [sign] (y :: l)). rewrite !in_app_iff. right; left; left; reflexivity. }
      apply split_join; [discriminate|discriminate|exact F1].
  - destruct (contains [sign] (join command l)) eqn:C.
    + apply contains_single in C. destruct (S1 l F1 C).
    + apply split_join; assumption.
Qed.

(** ** Written intervals *)
(** An interval as written: bracket, text, comma, text, bracket *)
Record written := { w_lopen : bool; w_lo : pystr; w_hi : pystr; w_ropen : bool }.
Definition text (i : written) : pystr :=
  (if w_lopen i then 40 else 91) :: w_lo i ++ 44 :: w_hi i ++ [if w_ropen i then 41 else 93].
(** The end points do not contain commas or any of the separators. *)
Definition plain_end (s : pystr) : Prop := ~ In 44 s /\ free cup_sign s /\ free cap_sign s /\ free (u "\cup") s /\ free (u "\cap") s.
Definition plain (i : written) : Prop := plain_end (w_lo i) /\ plain_end (w_hi i).
Definition without (p : N -> bool) (s : pystr) : pystr := filter (fun c => negb (p c)) s.
Definition opening (c : N) : bool := (c =? 40) || (c =? 91).
Definition closing (c : N) : bool := (c =? 41) || (c =? 93).
Definition separators : list pystr := [cup_sign; cap_sign; u "\cup"; u "\cap"].

Lemma text_free sep a i b : In sep separators -> plain i -> free sep a -> free sep b -> free sep (a ++ text i ++ b).
Proof.
  intros Hs [(_ & P1) (_ & P2)] Ha Hb. unfold text. cbn [app]. rewrite <- !app_assoc. cbn [app]. rewrite <- !app_assoc. cbn [app].
  assert (Hp : forall s, (free cup_sign s /\ free cap_sign s /\ free (u "\cup") s /\ free (u "\cap") s) -> free sep s).
  { intros s (F1 & F2 & F3 & F4). destruct Hs as [<-|[<-|[<-|[<-|[]]]]]; assumption. }
  assert (Hn : forall c, In c [40; 41; 44; 91; 93] -> ~ In c sep).
  { intros c Hc. destruct Hs as [<-|[<-|[<-|[<-|[]]]]]; vm_compute in Hc |- *; intuition (subst; discriminate). }
  apply free_mid; [exact Ha| |destruct (w_lopen i); apply Hn; cbn; tauto].
  apply free_mid; [apply Hp, P1| |apply Hn; cbn; tauto].
  apply free_mid; [apply Hp, P2|exact Hb|destruct (w_ropen i); apply Hn; cbn; tauto].
Qed.
Lemma sep_free sep sep' : In sep separators -> In sep' separators -> sep <> sep' -> free sep sep'.
Proof.
  intros H H' Hne. apply contains_free.
  destruct H as [<-|[<-|[<-|[<-|[]]]]], H' as [<-|[<-|[<-|[<-|[]]]]]; try contradiction; reflexivity.
Qed.
Lemma sep_nonempty sep : In sep separators -> sep <> [].
Proof. intros [<-|[<-|[<-|[<-|[]]]]]; discriminate. Qed.
Lemma text_end i : exists y, text i = y ++ [if w_ropen i then 41 else 93].
Proof. exists ((if w_lopen i then 40 else 91) :: w_lo i ++ 44 :: w_hi i). unfold text. cbn [app]. rewrite <- app_assoc. reflexivity. Qed.
Lemma bracket_not_sep sep (b : bool) : In sep separators -> ~ In (if b then 41 else 93) sep.
Proof. intros [<-|[<-|[<-|[<-|[]]]]]; destruct b; vm_compute; intuition discriminate. Qed.
Lemma text_closed sep i : In sep separators -> plain i -> closed sep (text i).
Proof.
  intros Hs Hp. split.
  - rewrite <- (app_nil_r (text i)). change (text i ++ []) with ([] ++ text i ++ []). apply text_free; auto; apply free_nil, sep_nonempty, Hs.
  - destruct (text_end i) as [y Ey]. exists y. eexists. split; [exact Ey|apply bracket_not_sep, Hs].
Qed.
Lemma join_end sep l : l <> [] -> Forall (fun x => exists y b, x = y ++ [if b : bool then 41 else 93]) l -> exists y (b : bool), join sep l = y ++ [if b then 41 else 93].
Proof.
  intros Hl F. induction F as [|x l (y & b & Hx) F IH]; [contradiction|]. destruct l as [|x' l]; [exists y, b; exact Hx|].
  destruct IH as (y' & b' & E'); [discriminate|]. exists (x ++ sep ++ y'), b'. change (join sep (x :: x' :: l)) with (x ++ sep ++ join sep (x' :: l)).
  rewrite E', <- !app_assoc. reflexivity.
Qed.
Lemma part_closed sep capsep p : In sep separators -> In capsep separators -> sep <> capsep -> p <> [] -> Forall plain p ->
  closed sep (join capsep (map text p)).
Proof.
  intros Hs Hc Hne Hp F. split.
  - apply (free_join sep [] capsep); [apply free_nil, sep_nonempty, Hs|apply sep_nonempty, Hs| |apply sep_free; assumption|].
    + intros x y Hx Hy. apply in_map_iff in Hx. destruct Hx as (i & <- & Hi). rewrite <- (app_nil_r (text i)).
      apply text_free; auto; [rewrite Forall_forall in F; apply F, Hi|apply free_nil, sep_nonempty, Hs].
    + intros x y z Hx Hy Hz. apply in_map_iff in Hx. destruct Hx as (i & <- & Hi). apply text_free; auto. rewrite Forall_forall in F; apply F, Hi.
  - destruct (join_end capsep (map text p)) as (y & b & E).
    + destruct p; [contradiction|discriminate].
    + apply Forall_forall. intros x Hx. apply in_map_iff in Hx. destruct Hx as (i & <- & _). destruct (text_end i) as [y Ey]. eauto.
    + exists y. eexists. split; [exact E|apply bracket_not_sep, Hs].
Qed.
(** The whole text: unions of intersections *)
Definition whole (cupsep capsep : pystr) (parts : list (list written)) : pystr :=
  join cupsep (map (fun p => join capsep (map text p)) parts).
Definition cup_like (s : pystr) : Prop := s = cup_sign \/ s = u "\cup".
Definition cap_like (s : pystr) : Prop := s = cap_sign \/ s = u "\cap".
Lemma split_parts cupsep capsep parts : cup_like cupsep -> cap_like capsep -> parts <> [] -> Forall (fun p => p <> [] /\ Forall plain p) parts ->
  split_either cup_sign (u "\cup") (whole cupsep capsep parts) = map (fun p => join capsep (map text p)) parts.
Proof.
  intros Hu Ha Hp F. unfold whole.
  assert (C : forall sep, (sep = cup_sign \/ sep = u "\cup") -> Forall (closed sep) (map (fun p => join capsep (map text p)) parts)).
  { intros sep Hsep. apply Forall_forall. intros x Hx. apply in_map_iff in Hx. destruct Hx as (p & <- & Hx). rewrite Forall_forall in F. destruct (F p Hx) as [Hne Hpl].
    apply part_closed; auto.
    - destruct Hsep as [->| ->]; cbn; tauto.
    - destruct Ha as [->| ->]; cbn; tauto.
    - destruct Hsep as [->| ->], Ha as [->| ->]; discriminate. }
  apply (either_join 8899); [exact Hu|discriminate|vm_compute; intuition discriminate|destruct parts; [contradiction|discriminate]|apply C; auto|apply C; auto].
Qed.
Lemma split_part capsep p : cap_like capsep -> p <> [] -> Forall plain p ->
  split_either cap_sign (u "\cap") (join capsep (map text p)) = map text p.
Proof.
  intros Ha Hp F.
  assert (C : forall sep, (sep = cap_sign \/ sep = u "\cap") -> Forall (closed sep) (map text p)).
  { intros sep Hsep. apply Forall_forall. intros x Hx. apply in_map_iff in Hx. destruct Hx as (i & <- & Hi). rewrite Forall_forall in F.
    apply text_closed; [destruct Hsep as [->| ->]; cbn; tauto|apply F, Hi]. }
  apply (either_join 8745); [exact Ha|discriminate|vm_compute; intuition discriminate|destruct p; [contradiction|discriminate]|apply C; auto|apply C; auto].
Qed.
(** Reading one interval *)
Lemma strip_text i : strip (text i) = text i.
Proof.
  apply strip_by_id; [unfold text; destruct (w_lopen i); reflexivity|]. destruct (text_end i) as [y ->]. rewrite rev_app_distr. destruct (w_ropen i); reflexivity.
Qed.
Lemma split_text i : plain i -> split_on (u ",") (text i) = [(if w_lopen i then 40 else 91) :: w_lo i; w_hi i ++ [if w_ropen i then 41 else 93]].
Proof.
  intros [[P1 _] [P2 _]]. change (u ",") with [44]. change (text i) with (join [44] [(if w_lopen i then 40 else 91) :: w_lo i; w_hi i ++ [if w_ropen i then 41 else 93]]).
  apply split_on_join; [discriminate|discriminate| |].
  - constructor; [|constructor; [|constructor]]; apply clean_single.
    + intros [H|H]; [destruct (w_lopen i); discriminate|exact (P1 H)].
    + rewrite in_app_iff. intros [H|[H|[]]]; [exact (P2 H)|destruct (w_ropen i); discriminate].
  - cbn [last]. intros p q E. assert (H : In 44 (w_hi i ++ [if w_ropen i then 41 else 93])) by (rewrite E, !in_app_iff; right; left; left; reflexivity).
    rewrite in_app_iff in H. destruct H as [H|[H|[]]]; [exact (P2 H)|destruct (w_ropen i); discriminate].
Qed.
Lemma drop_opening i : replace (u "[") [] (replace (u "(") [] ((if w_lopen i then 40 else 91) :: w_lo i)) = without opening (w_lo i).
Proof.
  change (u "[") with [91]. change (u "(") with [40]. rewrite !replace_single_del. unfold without.
  assert (E : forall s, filter (fun x => negb (x =? 91)) (filter (fun x => negb (x =? 40)) s) = filter (fun c => negb (opening c)) s).
  { induction s as [|c s IH]; [reflexivity|]. cbn [filter]. unfold opening at 1. destruct (c =? 40); cbn [negb orb]; [exact IH|]. cbn [filter]. destruct (c =? 91); cbn [negb]; rewrite IH; reflexivity. }
  rewrite E. destruct (w_lopen i); reflexivity.
Qed.
Lemma drop_closing i : replace (u "]") [] (replace (u ")") [] (w_hi i ++ [if w_ropen i then 41 else 93])) = without closing (w_hi i).
Proof.
  change (u "]") with [93]. change (u ")") with [41]. rewrite !replace_single_del. unfold without.
  assert (E : forall s, filter (fun x => negb (x =? 93)) (filter (fun x => negb (x =? 41)) s) = filter (fun c => negb (closing c)) s).
  { induction s as [|c s IH]; [reflexivity|]. cbn [filter]. unfold closing at 1. destruct (c =? 41); cbn [negb orb]; [exact IH|]. cbn [filter]. destruct (c =? 93); cbn [negb]; rewrite IH; reflexivity. }
  rewrite E, filter_app. destruct (w_ropen i); cbn; apply app_nil_r.
Qed.

(** ** Meaning *)
Inductive ext := MInf | Fin (q : Q) | PInf.
Definition above (open : bool) (lo : ext) (x : Q) : Prop :=
  match lo with MInf => True | Fin q => (if open then q < x else q <= x)%Q | PInf => False end.
Definition below (open : bool) (hi : ext) (x : Q) : Prop :=
  match hi with MInf => False | Fin q => (if open then x < q else x <= q)%Q | PInf => True end.
(** [a > b] *)
Definition ext_gt (a b : ext) : bool :=
  match a, b with
  | MInf, _ | _, PInf => false
  | PInf, _ | _, MInf => true
  | Fin p, Fin q => negb (Qle_bool p q)
  end.
(** Within 1e-7 of an integer *)
Definition near_int (e : ext) : bool :=
  match e with Fin q => Qle_bool (Qabs (q - inject_Z (Qfloor (q + (1 # 2))))) (1 # 10000000) | _ => false end.
Definition trunc (q : Q) : Z := Z.quot (Qnum q) (Zpos (Qden q)).
Definition snap (e : ext) : ext := match e with Fin q => if near_int e then Fin (inject_Z (trunc q)) else e | _ => e end.

(** SymPy computes exactly: [num v e]: [v] is a number (or infinity) of value [e];
    [set s P]: [s] is a set of reals whose rational members are given by [P]. *)
Record faithful {St V S : Type} (IS : ISympy St V S) (num : V -> ext -> Prop) (set : S -> (Q -> Prop) -> Prop) : Prop := {
  fa_number : forall v e, num v e -> pure_to (iv_is_number _ _ _ IS v) true;
  fa_evalf : forall v e, num v e -> exists w, pure_to (iv_evalf _ _ _ IS v) w /\ num w e;
  fa_is_int : forall v e, num v e -> pure_to (iv_is_int _ _ _ IS v) (near_int e);
  fa_Integer : forall v q, num v (Fin q) -> exists w, pure_to (iv_Integer _ _ _ IS v) w /\ num w (Fin (inject_Z (trunc q)));
  fa_gt : forall v e w f, num v e -> num w f -> pure_to (iv_gt _ _ _ IS v w) (ext_gt e f);
  fa_interval : forall v e w f lo ro, num v e -> num w f -> ext_gt e f = false ->
    exists s, pure_to (iv_interval _ _ _ IS v w lo ro) s /\ set s (fun x => above lo e x /\ below ro f x);
  fa_empty : set (iv_empty _ _ _ IS) (fun _ => False);
  fa_is_empty : forall s P, set s P -> exists b, pure_to (iv_is_empty _ _ _ IS s) b /\ (b = true <-> forall x, ~ P x);
  fa_intersect : forall s P t R, set s P -> set t R -> exists r, pure_to (iv_intersect _ _ _ IS s t) r /\ set r (fun x => P x /\ R x);
  fa_union : forall s P t R, set s P -> set t R -> exists r, pure_to (iv_union _ _ _ IS s t) r /\ set r (fun x => P x \/ R x)
}.

Section F.
Context {St V S : Type}.
Variable IS : ISympy St V S.
Variable num : V -> ext -> Prop.
Variable set : S -> (Q -> Prop) -> Prop.
Hypothesis F : faithful IS num set.

Lemma end_point_num v e : num v e -> exists w, pure_to (end_point IS v) w /\ num w (snap e).
Proof.
  intro H. destruct (fa_evalf _ _ _ F _ _ H) as (w & Pw & Nw). pose proof (fa_is_int _ _ _ F _ _ Nw) as Pi.
  destruct (near_int e) eqn:Ni.
  - destruct e as [|q|]; try discriminate Ni. destruct (fa_Integer _ _ _ F _ _ Nw) as (z & Pz & Nz). exists z. split.
    + eapply pure_bind; [exact (fa_number _ _ _ F _ _ H)|]. eapply pure_bind; [exact Pw|]. eapply pure_bind; [exact Pi|]. exact Pz.
    + cbn [snap]. rewrite Ni. exact Nz.
  - exists w. split.
    + eapply pure_bind; [exact (fa_number _ _ _ F _ _ H)|]. eapply pure_bind; [exact Pw|]. eapply pure_bind; [exact Pi|]. apply pure_ret.
    + destruct e; cbn [snap]; try rewrite Ni; exact Nw.
Qed.
(** The end points are read as these numbers. *)
Definition reads (i : written) (e f : ext) : Prop :=
  (exists v, pure_to (iv_latex2sympy _ _ _ IS (without opening (w_lo i))) v /\ num v e) /\
  (exists v, pure_to (iv_latex2sympy _ _ _ IS (without closing (w_hi i))) v /\ num v f).
(** Open on the left: a round opening bracket anywhere *)
Definition open_left (i : written) : bool := contains (u "(") (text i).
Definition open_right (i : written) : bool := contains (u ")") (text i).
Definition within (i : written) (e f : ext) (x : Q) : Prop := above (open_left i) (snap e) x /\ below (open_right i) (snap f) x.

Lemma one_interval_ok i e f : plain i -> reads i e f -> ext_gt (snap e) (snap f) = false ->
  exists s, pure_to (one_interval IS (text i)) s /\ set s (within i e f).
Proof.
  intros Hp [(v & Pv & Nv) (w & Pw & Nw)] Hg.
  destruct (end_point_num _ _ Nv) as (v' & Pv' & Nv'). destruct (end_point_num _ _ Nw) as (w' & Pw' & Nw').
  destruct (fa_interval _ _ _ F _ _ _ _ (open_left i) (open_right i) Nv' Nw' Hg) as (s & Ps & Hs). exists s. split; [|exact Hs].
  unfold one_interval. rewrite strip_text, (split_text i Hp). rewrite drop_opening, drop_closing.
  eapply pure_bind; [exact Pv|]. eapply pure_bind; [exact Pw|]. eapply pure_bind; [exact Pv'|]. eapply pure_bind; [exact Pw'|].
  eapply pure_bind; [exact (fa_number _ _ _ F _ _ Nv')|]. eapply pure_bind; [exact (fa_number _ _ _ F _ _ Nw')|].
  eapply pure_bind; [exact (fa_gt _ _ _ F _ _ _ _ Nv' Nw')|]. rewrite Hg. exact Ps.
Qed.
Lemma one_interval_bad i e f : plain i -> reads i e f -> ext_gt (snap e) (snap f) = true ->
  forall st, exists ex st', one_interval IS (text i) st = (Raise ex, st').
Proof.
  intros Hp [(v & Pv & Nv) (w & Pw & Nw)] Hg st.
  destruct (end_point_num _ _ Nv) as (v' & Pv' & Nv'). destruct (end_point_num _ _ Nw) as (w' & Pw' & Nw').
  unfold one_interval. rewrite strip_text, (split_text i Hp). rewrite drop_opening, drop_closing.
  assert (G := fa_gt _ _ _ F _ _ _ _ Nv' Nw'). rewrite Hg in G.
  do 4 match goal with P : pure_to ?m _ |- context [bind ?m _ ?st0] => destruct (pure_inv _ _ st0 P) as [? X]; rewrite (bind_step _ _ _ _ _ X); clear X end.
  match goal with |- context [bind _ _ ?st0] => destruct (pure_inv _ _ st0 (fa_number _ _ _ F _ _ Nv')) as [s5 X]; rewrite (bind_step _ _ _ _ _ X); clear X end.
  destruct (pure_inv _ _ s5 (fa_number _ _ _ F _ _ Nw')) as [s6 X]; rewrite (bind_step _ _ _ _ _ X); clear X.
  destruct (pure_inv _ _ s6 G) as [s7 X]; rewrite (bind_step _ _ _ _ _ X); clear X. exists ValueError, s7. reflexivity.
Qed.

(** A written interval with the values of its end points *)
Definition valued := (written * (ext * ext))%type.
Definition value_ok (v : valued) : Prop :=
  plain (fst v) /\ reads (fst v) (fst (snd v)) (snd (snd v)) /\ ext_gt (snap (fst (snd v))) (snap (snd (snd v))) = false.
Definition inside (v : valued) (x : Q) : Prop := within (fst v) (fst (snd v)) (snd (snd v)) x.
(** No proper non-empty prefix has an empty intersection. *)
Definition prefixes_meet (p : list valued) : Prop :=
  forall a b, p = a ++ b -> a <> [] -> b <> [] -> exists x, Forall (fun i => inside i x) a.

Lemma intersections_acc p : Forall value_ok p -> forall s P, set s P ->
  (forall a b, p = a ++ b -> b <> [] -> exists x, P x /\ Forall (fun i => inside i x) a) ->
  exists r R, pure_to (intersections IS s (map text (map fst p))) r /\ set r R /\ forall x, R x <-> P x /\ Forall (fun i => inside i x) p.
Proof.
  induction 1 as [|i p Hi Hp IH]; intros s P Hs Hm.
  - exists s, P. split; [apply pure_ret|]. split; [exact Hs|]. intro x. split; [intro; split; [assumption|constructor]|tauto].
  - destruct Hi as (Pl & Rd & Vg). destruct (one_interval_ok _ _ _ Pl Rd Vg) as (t & Pt & Ht).
    destruct (fa_is_empty _ _ _ F _ _ Hs) as (b & Pb & Hb). destruct (Hm [] (i :: p) eq_refl) as (x0 & Px0 & _); [discriminate|].
    assert (b = false) as -> by (destruct b; [exfalso; apply (proj1 Hb eq_refl x0), Px0|reflexivity]).
    destruct (fa_intersect _ _ _ F _ _ _ _ Hs Ht) as (r1 & P1 & H1).
    destruct (IH r1 _ H1) as (r & R & Pr & Sr & HR).
    { intros a b E Hb0. destruct (Hm (i :: a) b) as (x & Px & Fx); [rewrite E; reflexivity|exact Hb0|]. inversion Fx; subst. exists x. auto. }
    exists r, R. split.
    + cbn [map intersections]. eapply pure_bind; [exact Pt|]. eapply pure_bind; [exact Pb|]. eapply pure_bind; [exact P1|]. exact Pr.
    + split; [exact Sr|]. intro x. rewrite HR. split; [intros [[? ?] ?]; split; [assumption|constructor; assumption]|].
      intros [Px Fx]. inversion Fx; subst. auto.
Qed.
(** Starting from a set known to be empty: it is forgotten. *)
Lemma intersections_forget p : Forall value_ok p -> p <> [] -> prefixes_meet p -> forall s P, set s P -> (forall x, ~ P x) ->
  exists r R, pure_to (intersections IS s (map text (map fst p))) r /\ set r R /\ forall x, R x <-> Forall (fun i => inside i x) p.
Proof.
  intros Hv Hne Hm s P Hs He. destruct p as [|i p]; [contradiction|]. inversion Hv as [|? ? Hi Hp]; subst.
  destruct Hi as (Pl & Rd & Vg). destruct (one_interval_ok _ _ _ Pl Rd Vg) as (t & Pt & Ht).
  destruct (fa_is_empty _ _ _ F _ _ Hs) as (b & Pb & Hb). assert (b = true) as -> by (apply Hb, He).
  destruct (intersections_acc p Hp t _ Ht) as (r & R & Pr & Sr & HR).
  { intros a b E Hb0. destruct (Hm (i :: a) b) as (x & Fx); [rewrite E; reflexivity|discriminate|exact Hb0|]. inversion Fx; subst. exists x. auto. }
  exists r, R. split.
  - cbn [map intersections]. eapply pure_bind; [exact Pt|]. eapply pure_bind; [exact Pb|]. eapply pure_bind; [apply pure_ret|]. exact Pr.
  - split; [exact Sr|]. intro x. rewrite HR. split; [intros [? ?]; constructor; assumption|intro Fx; inversion Fx; auto].
Qed.
Lemma intersections_app l1 l2 s st : intersections IS s (l1 ++ l2) st = (a <- intersections IS s l1 ;; intersections IS a l2) st.
Proof.
  revert s st. induction l1 as [|t l1 IH]; intros s st; [reflexivity|]. cbn [app intersections]. unfold bind.
  destruct (one_interval IS t st) as [[x|e] s1]; [|reflexivity]. destruct (iv_is_empty _ _ _ IS s s1) as [[b|e] s2]; [|reflexivity].
  destruct ((if b then ret x else iv_intersect _ _ _ IS s x) s2) as [[y|e] s3]; [|reflexivity]. rewrite IH. reflexivity.
Qed.

Lemma unions_acc capsep parts : cap_like capsep ->
  Forall (fun p => p <> [] /\ Forall value_ok p /\ prefixes_meet p) parts -> forall s P, set s P ->
  exists r R, pure_to (unions IS s (map (fun p => join capsep (map text p)) (map (map fst) parts))) r /\ set r R /\
    forall x, R x <-> P x \/ Exists (fun p => Forall (fun i => inside i x) p) parts.
Proof.
  intros Hc. induction 1 as [|p parts (Hne & Hv & Hm) Hp IH]; intros s P Hs.
  - exists s, P. split; [apply pure_ret|]. split; [exact Hs|]. intro x. split; [auto|intros [?|Hx]; [assumption|inversion Hx]].
  - destruct (intersections_forget p Hv Hne Hm _ _ (fa_empty _ _ _ F)) as (t & T & Pt & St' & HT); [intros x []|].
    destruct (fa_union _ _ _ F _ _ _ _ Hs St') as (r1 & P1 & H1). destruct (IH r1 _ H1) as (r & R & Pr & Sr & HR).
    exists r, R. split.
    + cbn [map unions]. rewrite (split_part capsep (map fst p)); [|exact Hc|destruct p; [contradiction|discriminate]|].
      * eapply pure_bind; [exact Pt|]. eapply pure_bind; [exact P1|]. exact Pr.
      * apply Forall_forall. intros i Hi. apply in_map_iff in Hi. destruct Hi as (j & <- & Hj). rewrite Forall_forall in Hv. apply Hv, Hj.
    + split; [exact Sr|]. intro x. rewrite HR, HT, Exists_cons. tauto.
Qed.
(** The set computed for a written union of intersections *)
Theorem interval_members cupsep capsep parts : cup_like cupsep -> cap_like capsep -> parts <> [] ->
  Forall (fun p => p <> [] /\ Forall value_ok p /\ prefixes_meet p) parts ->
  exists r R, pure_to (interval_of IS (whole cupsep capsep (map (map fst) parts))) r /\ set r R /\
    forall x, R x <-> Exists (fun p => Forall (fun i => inside i x) p) parts.
Proof.
  intros Hu Hc Hne Hp. unfold interval_of. rewrite split_parts; [|exact Hu|exact Hc|destruct parts; [contradiction|discriminate]|].
  - destruct (unions_acc capsep parts Hc Hp _ _ (fa_empty _ _ _ F)) as (r & R & Pr & Sr & HR).
    exists r, R. split; [exact Pr|]. split; [exact Sr|]. intro x. rewrite HR. tauto.
  - apply Forall_forall. intros p Hi. apply in_map_iff in Hi. destruct Hi as (q & <- & Hq). rewrite Forall_forall in Hp. destruct (Hp q Hq) as (Qne & Qv & _).
    split; [destruct q; [contradiction|discriminate]|]. apply Forall_forall. intros i Hi. apply in_map_iff in Hi. destruct Hi as (j & <- & Hj).
    rewrite Forall_forall in Qv. apply Qv, Hj.
Qed.
(** An empty intermediate intersection is forgotten. *)
Theorem interval_forgets capsep p1 p2 : cap_like capsep -> p1 <> [] -> p2 <> [] -> Forall value_ok (p1 ++ p2) -> prefixes_meet p1 -> prefixes_meet p2 ->
  (forall x, ~ Forall (fun i => inside i x) p1) ->
  exists r R, pure_to (interval_of IS (join capsep (map text (map fst (p1 ++ p2))))) r /\ set r R /\ forall x, R x <-> Forall (fun i => inside i x) p2.
Proof.
  intros Hc N1 N2 Hv M1 M2 He. apply Forall_app in Hv. destruct Hv as [V1 V2].
  destruct (intersections_forget p1 V1 N1 M1 _ _ (fa_empty _ _ _ F)) as (t & T & Pt & St' & HT); [intros x []|].
  destruct (intersections_forget p2 V2 N2 M2 _ _ St') as (t2 & T2 & Pt2 & St2 & HT2); [intros x Hx; apply (He x), HT, Hx|].
  destruct (fa_union _ _ _ F _ _ _ _ (fa_empty _ _ _ F) St2) as (r & Pr & Sr).
  exists r, (fun x => False \/ T2 x). split; [|split; [exact Sr|intro x; rewrite HT2; tauto]].
  assert (Pl : Forall plain (map fst (p1 ++ p2))).
  { apply Forall_forall. intros i Hi. apply in_map_iff in Hi. destruct Hi as (j & <- & Hj). apply in_app_or in Hj. rewrite Forall_forall in V1, V2.
    destruct Hj as [Hj|Hj]; [apply V1, Hj|apply V2, Hj]. }
  assert (Ne : map fst (p1 ++ p2) <> []) by (destruct p1; [contradiction|discriminate]).
  unfold interval_of. change (join capsep (map text (map fst (p1 ++ p2)))) with (whole (u "\cup") capsep [map fst (p1 ++ p2)]).
  rewrite split_parts; [|right; reflexivity|exact Hc|discriminate|constructor; [split; assumption|constructor]].
  cbn [map unions]. rewrite (split_part capsep _ Hc Ne Pl).
  eapply pure_bind; [|eapply pure_bind; [exact Pr|apply pure_ret]].
  rewrite !map_app. intro st. rewrite intersections_app. revert st. eapply pure_bind; [exact Pt|exact Pt2].
Qed.
(** Decreasing end points make the whole text no interval. *)
Lemma intersections_bad p i q : Forall value_ok p -> plain (fst i) -> reads (fst i) (fst (snd i)) (snd (snd i)) ->
  ext_gt (snap (fst (snd i))) (snap (snd (snd i))) = true -> forall s, (exists P, set s P) ->
  forall st, exists e st', intersections IS s (map text (map fst (p ++ i :: q))) st = (Raise e, st').
Proof.
  intros Hv Hp Hr Hg. induction Hv as [|j p Hj Hv IH]; intros s (P & Hs) st.
  - destruct (one_interval_bad _ _ _ Hp Hr Hg st) as (e & st' & E). exists e, st'. cbn [app map intersections]. apply bind_raise. exact E.
  - destruct Hj as (Pl & Rd & Vg). destruct (one_interval_ok _ _ _ Pl Rd Vg) as (t & Pt & Ht). destruct (fa_is_empty _ _ _ F _ _ Hs) as (b & Pb & Hb).
    cbn [app map intersections]. destruct (pure_inv _ _ st Pt) as [s1 E1]. rewrite (bind_step _ _ _ _ _ E1). destruct (pure_inv _ _ s1 Pb) as [s2 E2]. rewrite (bind_step _ _ _ _ _ E2).
    destruct b.
    + rewrite bind_ret. apply IH. eauto.
    + destruct (fa_intersect _ _ _ F _ _ _ _ Hs Ht) as (r & Pr & Sr). destruct (pure_inv _ _ s2 Pr) as [s3 E3]. rewrite (bind_step _ _ _ _ _ E3). apply IH. eauto.
Qed.
Theorem interval_illegal cupsep capsep parts p i q rest : cup_like cupsep -> cap_like capsep ->
  Forall (fun p => p <> [] /\ Forall value_ok p /\ prefixes_meet p) parts -> Forall value_ok p -> Forall plain (map fst q) -> plain (fst i) -> reads (fst i) (fst (snd i)) (snd (snd i)) ->
  Forall (fun p => p <> [] /\ Forall plain (map fst p)) rest ->
  ext_gt (snap (fst (snd i))) (snap (snd (snd i))) = true ->
  forall st, exists e st', interval_of IS (whole cupsep capsep (map (map fst) (parts ++ (p ++ i :: q) :: rest))) st = (Raise e, st').
Proof.
  intros Hu Hc Hp Hpv Hq Hi Hr Hrest Hg st. 
  assert (Pv : forall l, Forall value_ok l -> Forall plain (map fst l)).
  { intros l Hl. apply Forall_forall. intros x Hx. apply in_map_iff in Hx. destruct Hx as (j & <- & Hj). rewrite Forall_forall in Hl. apply Hl, Hj. }
  assert (Pm : Forall plain (map fst (p ++ i :: q))).
  { rewrite map_app. apply Forall_app. split; [apply Pv, Hpv|]. constructor; assumption. }
  unfold interval_of. rewrite split_parts; [|exact Hu|exact Hc|destruct parts; discriminate|].
  - rewrite !map_app. cbn [map].
    assert (G : forall s, (exists P, set s P) -> forall st, exists e st',
      unions IS s (map (fun p0 => join capsep (map text p0)) (map (map fst) parts) ++ join capsep (map text (map fst (p ++ i :: q))) :: map (fun p0 => join capsep (map text p0)) (map (map fst) rest)) st = (Raise e, st')).
    { clear st. induction Hp as [|a parts (Hne & Hv & Hm) Hp IH]; intros s (P & Hs) st.
      - cbn [map app unions]. rewrite (split_part capsep _ Hc); [|destruct p; discriminate|exact Pm].
        destruct (intersections_bad p i q Hpv Hi Hr Hg _ (ex_intro _ _ (fa_empty _ _ _ F)) st) as (e & st' & E). exists e, st'. apply bind_raise. exact E.
      - cbn [map app unions]. rewrite (split_part capsep (map fst a) Hc); [|destruct a; [contradiction|discriminate]|apply Pv, Hv].
        destruct (intersections_forget a Hv Hne Hm _ _ (fa_empty _ _ _ F)) as (t & T & Pt & St' & HT); [intros x []|].
        destruct (fa_union _ _ _ F _ _ _ _ Hs St') as (r1 & P1 & H1).
        destruct (pure_inv _ _ st Pt) as [s1 E1]. rewrite (bind_step _ _ _ _ _ E1). destruct (pure_inv _ _ s1 P1) as [s2 E2]. rewrite (bind_step _ _ _ _ _ E2).
        apply IH. eauto. }
    apply G. exists (fun _ => False). exact (fa_empty _ _ _ F).
  - apply Forall_forall. intros x Hx. apply in_map_iff in Hx. destruct Hx as (y & <- & Hy). apply in_app_or in Hy. destruct Hy as [Hy|[<-|Hy]].
    + rewrite Forall_forall in Hp. destruct (Hp y Hy) as (Yn & Yv & _). split; [destruct y; [contradiction|discriminate]|apply Pv, Yv].
    + split; [destruct p; discriminate|exact Pm].
    + rewrite Forall_forall in Hrest. destruct (Hrest y Hy) as (Yn & Yp). split; [destruct y; [contradiction|discriminate]|exact Yp].
Qed.
End F.

(** ** The usual reading *)
(** Without brackets inside the end points, openness is what the brackets say. *)
Definition bracketless (s : pystr) : Prop := ~ In 40 s /\ ~ In 41 s.
Lemma open_plain i : bracketless (w_lo i) -> bracketless (w_hi i) -> open_left i = w_lopen i /\ open_right i = w_ropen i.
Proof.
  intros [L1 L2] [R1 R2]. unfold open_left, open_right, text. split.
  - destruct (w_lopen i) eqn:B; [apply contains_single; left; reflexivity|]. apply contains_free. intro H. apply infix_contains, contains_single in H.
    cbn in H. rewrite !in_app_iff in H. cbn in H. rewrite in_app_iff in H. cbn in H. destruct (w_ropen i); intuition discriminate.
  - destruct (w_ropen i) eqn:B; [apply contains_single; right; apply in_or_app; right; right; apply in_or_app; right; left; reflexivity|].
    apply contains_free. intro H. apply infix_contains, contains_single in H.
    cbn in H. rewrite !in_app_iff in H. cbn in H. rewrite in_app_iff in H. cbn in H. destruct (w_lopen i); intuition discriminate.
Qed.
(** A round opening bracket inside an end point opens the interval on the left. *)
Lemma open_inside i : In 40 (w_lo i) \/ In 40 (w_hi i) -> open_left i = true.
Proof.
  intro H. apply contains_single. unfold text. cbn. rewrite !in_app_iff. cbn. rewrite in_app_iff. tauto.
Qed.
(** End points that are integers or not near integers are not moved. *)
Definition steady_end (e : ext) : Prop := match e with Fin q => near_int e = true -> exists z, (q == inject_Z z)%Q | _ => True end.
Definition ext_eq (a b : ext) : Prop := match a, b with Fin p, Fin q => (p == q)%Q | MInf, MInf | PInf, PInf => True | _, _ => False end.
Lemma trunc_int q z : (q == inject_Z z)%Q -> trunc q = z.
Proof.
  intro H. unfold Qeq in H. cbn in H. unfold trunc. rewrite Z.mul_1_r in H. rewrite H. apply Z.quot_mul. discriminate.
Qed.
Lemma snap_steady e : steady_end e -> ext_eq (snap e) e.
Proof.
  destruct e as [|q|]; cbn [snap steady_end]; try (intros; exact I). intro H. destruct (near_int (Fin q)) eqn:Nq; [|apply Qeq_refl].
  destruct (H eq_refl) as [z Hz]. cbn [ext_eq]. rewrite (trunc_int _ _ Hz). symmetry. exact Hz.
Qed.
Lemma above_ext o a b x : ext_eq a b -> (above o a x <-> above o b x).
Proof. destruct a, b; cbn; try tauto. intro H. destruct o; rewrite H; tauto. Qed.
Lemma below_ext o a b x : ext_eq a b -> (below o a x <-> below o b x).
Proof. destruct a, b; cbn; try tauto. intro H. destruct o; rewrite H; tauto. Qed.
Lemma within_usual i e f x : bracketless (w_lo i) -> bracketless (w_hi i) -> steady_end e -> steady_end f ->
  (within i e f x <-> above (w_lopen i) e x /\ below (w_ropen i) f x).
Proof.
  intros B1 B2 S1 S2. unfold within. destruct (open_plain i B1 B2) as [-> ->].
  rewrite (above_ext _ _ _ _ (snap_steady e S1)), (below_ext _ _ _ _ (snap_steady f S2)). tauto.
Qed.
(** An end point just below a positive integer is moved to the previous integer. *)
Lemma snap_down z d : (0 < z)%Z -> (0 < d)%Q -> (d <= 1 # 10000000)%Q -> ext_eq (snap (Fin (inject_Z z - d))) (Fin (inject_Z (z - 1))).
Proof.
  intros Hz Hd1 Hd2. set (q := (inject_Z z - d)%Q).
  assert (Fl : Qfloor (q + (1 # 2)) = z).
  { assert (A1 := Qfloor_le (q + (1 # 2))). assert (A2 := Qlt_floor (q + (1 # 2))). unfold q in *.
    set (k := Qfloor (inject_Z z - d + (1 # 2))) in *. clearbody k.
    assert (B1 : (inject_Z k < inject_Z (z + 1))%Q) by (rewrite inject_Z_plus; change (inject_Z 1) with 1%Q; apply (Qle_lt_trans _ _ _ A1); rewrite Qlt_minus_iff; setoid_replace (inject_Z z + 1 + - (inject_Z z - d + (1 # 2)))%Q with (d + (1 # 2))%Q by ring; apply (Qlt_trans _ d); [exact Hd1|rewrite Qlt_minus_iff; setoid_replace (d + (1 # 2) + - d)%Q with (1 # 2)%Q by ring; reflexivity]).
    assert (B2 : (inject_Z z < inject_Z (k + 1))%Q).
    { apply (Qle_lt_trans _ (inject_Z z - d + (1 # 2))%Q); [|exact A2]. rewrite Qle_minus_iff. setoid_replace (inject_Z z - d + (1 # 2) + - inject_Z z)%Q with ((1 # 2) - d)%Q by ring.
      apply (proj1 (Qle_minus_iff _ _)), (Qle_trans _ _ _ Hd2). discriminate. }
    rewrite <- Zlt_Qlt in B1, B2. lia. }
  assert (Nq : near_int (Fin q) = true).
  { cbn [near_int]. rewrite Fl. apply Qle_bool_iff. unfold q. setoid_replace (inject_Z z - d - inject_Z z)%Q with (- d)%Q by ring.
    rewrite Qabs_opp, Qabs_pos by (apply Qlt_le_weak, Hd1). exact Hd2. }
  cbn [snap]. rewrite Nq. cbn [ext_eq]. enough (trunc q = (z - 1)%Z) as -> by reflexivity.
  assert (F2 : Qfloor q = (z - 1)%Z).
  { assert (A1 := Qfloor_le q). assert (A2 := Qlt_floor q). unfold q in *. set (k := Qfloor (inject_Z z - d)) in *. clearbody k.
    assert (B1 : (inject_Z k < inject_Z z)%Q) by (apply (Qle_lt_trans _ _ _ A1); rewrite Qlt_minus_iff; setoid_replace (inject_Z z + - (inject_Z z - d))%Q with d by ring; exact Hd1).
    assert (B2 : (inject_Z (z - 1) < inject_Z (k + 1))%Q).
    { apply (Qle_lt_trans _ (inject_Z z - d)%Q); [|exact A2]. unfold Z.sub. rewrite inject_Z_plus. change (inject_Z (-(1))) with (- (1))%Q. rewrite Qle_minus_iff.
      setoid_replace (inject_Z z - d + - (inject_Z z + - (1)))%Q with (1 - d)%Q by ring. apply (proj1 (Qle_minus_iff _ _)), (Qle_trans _ _ _ Hd2). discriminate. }
    rewrite <- Zlt_Qlt in B1, B2. lia. }
  unfold trunc. unfold Qfloor in F2. destruct q as [n m] eqn:Eq. cbn [Qnum Qden]. rewrite Z.quot_div_nonneg; [exact F2| |lia].
  assert (P : (0 <= q)%Q).
  { unfold q. apply (proj1 (Qle_minus_iff _ _)), (Qle_trans _ _ _ Hd2). apply (Qle_trans _ 1); [discriminate|]. change 1%Q with (inject_Z 1). rewrite <- Zle_Qle. lia. }
  rewrite Eq in P. unfold Qle in P. cbn in P. lia.
Qed.

(** The usual reading of a written interval with its values *)
Definition usual (v : valued) (x : Q) : Prop := above (w_lopen (fst v)) (fst (snd v)) x /\ below (w_ropen (fst v)) (snd (snd v)) x.
Definition ordinary (v : valued) : Prop :=
  plain (fst v) /\ bracketless (w_lo (fst v)) /\ bracketless (w_hi (fst v)) /\ steady_end (fst (snd v)) /\ steady_end (snd (snd v)).
Definition ordered (v : valued) : Prop := ext_gt (fst (snd v)) (snd (snd v)) = false.
(** No proper non-empty prefix has an empty intersection, in the usual reading. *)
Definition prefixes_meet_usually (p : list valued) : Prop :=
  forall a b, p = a ++ b -> a <> [] -> b <> [] -> exists x, Forall (fun i => usual i x) a.
Lemma ext_gt_ext a a' b b' : ext_eq a a' -> ext_eq b b' -> ext_gt a b = ext_gt a' b'.
Proof. destruct a, a', b, b'; cbn; try tauto; try reflexivity. intros H1 H2. rewrite H1, H2. reflexivity. Qed.
Lemma inside_usual v x : ordinary v -> (inside v x <-> usual v x).
Proof. intros (_ & B1 & B2 & S1 & S2). apply within_usual; assumption. Qed.
Lemma Forall_usual p x : Forall ordinary p -> (Forall (fun i => inside i x) p <-> Forall (fun i => usual i x) p).
Proof. intro H. induction H as [|v p Hv Hp IH]; [split; constructor|]. rewrite !Forall_cons_iff, IH, (inside_usual v x Hv). tauto. Qed.
Lemma prefixes_usual p : Forall ordinary p -> prefixes_meet_usually p -> prefixes_meet p.
Proof.
  intros H Hm a b -> Ha Hb. destruct (Hm a b eq_refl Ha Hb) as [x Fx]. exists x. apply Forall_app in H. apply Forall_usual; tauto.
Qed.
Lemma inner_bracket {St V S} (IS : ISympy St V S) num set (F : faithful IS num set) i e f : plain i -> reads IS num i e f -> ext_gt (snap e) (snap f) = false ->
  In 40 (w_lo i) \/ In 40 (w_hi i) ->
  exists r R, pure_to (one_interval IS (text i)) r /\ set r R /\ forall x, R x -> above true (snap e) x.
Proof.
  intros Hp Hr Hg Hb. destruct (one_interval_ok IS num set F i e f Hp Hr Hg) as (r & Pr & Sr). exists r, (within i e f). split; [exact Pr|]. split; [exact Sr|].
  intros x [Hx _]. rewrite (open_inside i Hb) in Hx. exact Hx.
Qed.
Lemma moved_down {St V S} (IS : ISympy St V S) num set (F : faithful IS num set) i e z d : plain i -> bracketless (w_lo i) -> bracketless (w_hi i) ->
  steady_end e -> (0 < z)%Z -> (0 < d)%Q -> (d <= 1 # 10000000)%Q -> reads IS num i e (Fin (inject_Z z - d)) -> ext_gt e (Fin (inject_Z (z - 1))) = false ->
  exists r R, pure_to (one_interval IS (text i)) r /\ set r R /\ forall x, R x <-> above (w_lopen i) e x /\ below (w_ropen i) (Fin (inject_Z (z - 1))) x.
Proof.
  intros Hp B1 B2 Se Hz D1 D2 Hr Hg. assert (Sn := snap_down z d Hz D1 D2).
  destruct (one_interval_ok IS num set F i e _ Hp Hr) as (r & Pr & Sr); [rewrite (ext_gt_ext _ _ _ _ (snap_steady _ Se) Sn); exact Hg|].
  exists r, (within i e (Fin (inject_Z z - d))). split; [exact Pr|]. split; [exact Sr|]. intro x. unfold within. destruct (open_plain i B1 B2) as [-> ->].
  rewrite (above_ext _ _ _ _ (snap_steady e Se)), (below_ext _ _ _ _ Sn). tauto.
Qed.
Section U.
Context {St V S : Type}.
Variable IS : ISympy St V S.
Variable num : V -> ext -> Prop.
Variable set : S -> (Q -> Prop) -> Prop.
Hypothesis F : faithful IS num set.
Definition read (v : valued) : Prop := reads IS num (fst v) (fst (snd v)) (snd (snd v)).
Lemma ordinary_ok v : ordinary v -> ordered v -> read v -> value_ok IS num v.
Proof.
  intros (P & B1 & B2 & S1 & S2) O R. split; [exact P|]. split; [exact R|]. rewrite (ext_gt_ext _ _ _ _ (snap_steady _ S1) (snap_steady _ S2)). exact O.
Qed.
Lemma Forall_ok p : Forall ordinary p -> Forall (fun v => ordered v /\ read v) p -> Forall (value_ok IS num) p.
Proof. intros H1 H2. rewrite Forall_forall in *. intros v Hv. destruct (H2 v Hv). apply ordinary_ok; auto. Qed.
Theorem interval_usual cupsep capsep parts : cup_like cupsep -> cap_like capsep -> parts <> [] ->
  Forall (fun p => p <> [] /\ Forall ordinary p /\ Forall (fun v => ordered v /\ read v) p /\ prefixes_meet_usually p) parts ->
  exists r R, pure_to (interval_of IS (whole cupsep capsep (map (map fst) parts))) r /\ set r R /\
    forall x, R x <-> Exists (fun p => Forall (fun i => usual i x) p) parts.
Proof.
  intros Hu Hc Hne Hp. destruct (interval_members IS num set F cupsep capsep parts Hu Hc Hne) as (r & R & Pr & Sr & HR).
  - eapply Forall_impl; [|exact Hp]. cbn. intros p (N & O & V0 & M0). split; [exact N|]. split; [apply Forall_ok; assumption|apply prefixes_usual; assumption].
  - exists r, R. split; [exact Pr|]. split; [exact Sr|]. intro x. rewrite HR, !Exists_exists. rewrite Forall_forall in Hp.
    split; intros (p & Hi & Hx); exists p; (split; [exact Hi|]); destruct (Hp p Hi) as (_ & O & _); apply (Forall_usual p x O); exact Hx.
Qed.
Theorem interval_usual_forgets capsep p1 p2 : cap_like capsep -> p1 <> [] -> p2 <> [] ->
  Forall ordinary (p1 ++ p2) -> Forall (fun v => ordered v /\ read v) (p1 ++ p2) -> prefixes_meet_usually p1 -> prefixes_meet_usually p2 ->
  (forall x, ~ Forall (fun i => usual i x) p1) ->
  exists r R, pure_to (interval_of IS (join capsep (map text (map fst (p1 ++ p2))))) r /\ set r R /\ forall x, R x <-> Forall (fun i => usual i x) p2.
Proof.
  intros Hc N1 N2 O V0 M1 M2 He. pose proof (proj1 (Forall_app _ _ _) O) as [O1 O2].
  destruct (interval_forgets IS num set F capsep p1 p2 Hc N1 N2 (Forall_ok _ O V0) (prefixes_usual _ O1 M1) (prefixes_usual _ O2 M2)) as (r & R & Pr & Sr & HR).
  - intros x Hx. apply (He x), (Forall_usual p1 x O1), Hx.
  - exists r, R. split; [exact Pr|]. split; [exact Sr|]. intro x. rewrite HR. apply Forall_usual, O2.
Qed.
Theorem interval_usual_illegal cupsep capsep parts p i q rest : cup_like cupsep -> cap_like capsep ->
  Forall (fun p => p <> [] /\ Forall ordinary p /\ Forall (fun v => ordered v /\ read v) p /\ prefixes_meet_usually p) parts ->
  Forall ordinary p -> Forall (fun v => ordered v /\ read v) p -> Forall ordinary q -> ordinary i -> read i -> ~ ordered i ->
  Forall (fun p => p <> [] /\ Forall ordinary p) rest ->
  forall st, exists e st', interval_of IS (whole cupsep capsep (map (map fst) (parts ++ (p ++ i :: q) :: rest))) st = (Raise e, st').
Proof.
  intros Hu Hc Hp Op Vp Oq Oi Ri No Hr.
  assert (Pl : forall l, Forall ordinary l -> Forall plain (map fst l)).
  { intros l H. apply Forall_forall. intros x Hx. apply in_map_iff in Hx. destruct Hx as (v & <- & Hv). rewrite Forall_forall in H. apply H, Hv. }
  apply (interval_illegal IS num set F); try assumption.
  - eapply Forall_impl; [|exact Hp]. cbn. intros a (N & O & V0 & M0). split; [exact N|]. split; [apply Forall_ok; assumption|apply prefixes_usual; assumption].
  - apply Forall_ok; assumption.
  - apply Pl, Oq.
  - apply Oi.
  - eapply Forall_impl; [|exact Hr]. cbn. intros a (N & O). split; [exact N|apply Pl, O].
  - destruct Oi as (_ & _ & _ & S1 & S2). rewrite (ext_gt_ext _ _ _ _ (snap_steady _ S1) (snap_steady _ S2)). unfold ordered in No.
    destruct (ext_gt (fst (snd i)) (snd (snd i))); [reflexivity|contradiction No; reflexivity].
Qed.
End U.
