(** Proofs about Split.v. *)
From Coq Require Import String List Arith NArith ZArith Bool Lia.
From Verif Require Import PyStr NumTheory PyStrTheory Regex RegexTheory Normalize Monad Split Spec.
Import ListNotations.
Local Open Scope N_scope.

(** ** Specification vocabulary *)
Definition opening (c : N) : Prop := In c (u "([{").
Definition closing (c : N) : Prop := In c (u ")]}").
(** Number of opening brackets minus number of closing brackets. *)
Fixpoint balance (s : pystr) : Z :=
  match s with
  | [] => 0
  | c :: s' =>
    ((if existsb (N.eqb c) (u "([{") then 1 else 0) - (if existsb (N.eqb c) (u ")]}") then 1 else 0) + balance s')%Z
  end.
Definition pair_of (k : kind) : N * N :=
  match k with KList => (91, 93) | KTuple => (40, 41) | KSet => (123, 125) end.
(** No prefix closes more than it opens. *)
Definition well_nested (s : pystr) : Prop :=
  balance s = 0%Z /\ forall p q, s = p ++ q -> (0 <= balance p)%Z.
(** A comma outside all brackets. *)
Definition top_comma (s : pystr) : Prop := exists p q, s = p ++ 44 :: q /\ balance p = 0%Z.
(** Something that reads as a thousands separator: digit, comma, optional space, three digits. *)
Definition has_thousands (s : pystr) : Prop :=
  exists a d1 sep d2 d3 d4 b, s = a ++ d1 :: 44 :: sep ++ [d2; d3; d4] ++ b /\
    (sep = [] \/ sep = [32]) /\ Forall (fun d => is_digit d = true) [d1; d2; d3; d4].
Fixpoint join (sep : pystr) (l : list pystr) : pystr :=
  match l with [] => [] | [x] => x | x :: l' => x ++ sep ++ join sep l' end.

Lemma balance_app a b : balance (a ++ b) = (balance a + balance b)%Z.
Proof. induction a as [|c a IH]; cbn [app balance]; [reflexivity|]. rewrite IH. lia. Qed.
Lemma balance_cons c s : balance (c :: s) = (balance [c] + balance s)%Z.
Proof. apply (balance_app [c] s). Qed.
Lemma step_balance cnt c : step cnt c = (cnt + balance [c])%Z.
Proof.
  unfold step, is_open, is_close. cbn [balance]. change (u "([{") with [40; 91; 123]. change (u ")]}") with [41; 93; 125].
  cbn [existsb]. destruct (c =? 91), (c =? 40), (c =? 123), (c =? 93), (c =? 41), (c =? 125); cbn [orb]; lia.
Qed.
Lemma balance_comma : balance [44] = 0%Z.
Proof. reflexivity. Qed.

(** ** Thousands separators *)
Lemma replace_single_del c w : replace [c] [] w = filter (fun x => negb (x =? c)) w.
Proof.
  unfold replace. induction w as [|d w IH]; [reflexivity|]. cbn [replace_go starts_with filter length].
  rewrite andb_true_r. rewrite N.eqb_sym. destruct (d =? c); cbn [negb app Nat.sub]; rewrite IH; reflexivity.
Qed.
Lemma balance_del_comma w : balance (filter (fun x => negb (x =? 44)) w) = balance w.
Proof.
  induction w as [|d w IH]; [reflexivity|]. cbn [filter].
  destruct (N.eqb_spec d 44) as [->|]; cbn [negb].
  - rewrite IH, (balance_cons 44). reflexivity.
  - rewrite balance_cons, (balance_cons d w), IH. reflexivity.
Qed.
Lemma strip_commas_balance s : balance (strip_commas s) = balance s.
Proof.
  unfold strip_commas, re_sub_fun. apply (sub_go_ind thousands_re _ (fun _ s o => balance o = balance s)).
  - reflexivity.
  - intros _ c s' o IH. rewrite balance_cons, (balance_cons c s'), IH. reflexivity.
  - intros _ w s' o st _ _ _ _ _ IH. rewrite !balance_app, IH, replace_single_del, balance_del_comma. reflexivity.
Qed.

Lemma den_digit w : den digit w -> exists d, w = [d] /\ is_digit d = true.
Proof. intros (d & -> & H). eauto. Qed.
Lemma den_lit c w : den (lit c) w -> w = [c].
Proof. intros (d & -> & H). cbn in H. apply N.eqb_eq in H. subst. reflexivity. Qed.
Lemma den_eps w : den REps w -> w = [].
Proof. exact (fun H => H). Qed.
Lemma den_digit3 w : den digit3 w -> exists d2 d3 d4, w = [d2; d3; d4] /\ Forall (fun d => is_digit d = true) [d2; d3; d4].
Proof.
  intros (w1 & w2 & -> & H1 & w3 & w4 & -> & H2 & w5 & w6 & -> & H3 & ->).
  apply den_digit in H1, H2, H3. destruct H1 as (a & -> & ?), H2 as (b & -> & ?), H3 as (c & -> & ?).
  exists a, b, c. split; [reflexivity|]. auto.
Qed.
Lemma den_thousands w : den thousands_re w -> has_thousands w.
Proof.
  unfold thousands_re. cbn [rseq]. intros (w1 & w2 & -> & H1 & w3 & w4 & -> & H2 & w5 & w6 & -> & H3 & ->).
  rewrite app_nil_r.
  (* the last digit before the first comma *)
  assert (exists a d1, w1 ++ w3 = a ++ [d1] /\ is_digit d1 = true) as (a & d1 & E & Hd1).
  { apply den_digit in H1. destruct H1 as (d & -> & Hd). destruct H2 as [H2|H2].
    - cbn in H2. destruct H2 as (x1 & x2 & -> & H2 & H4).
      apply den_digit in H2. destruct H2 as (d' & -> & Hd'). destruct H4 as (x3 & x4 & -> & [H4|H4] & ->).
      + apply den_digit in H4. destruct H4 as (d'' & -> & Hd''). exists [d; d'], d''. auto.
      + apply den_eps in H4. subst x3. exists [d], d'. auto.
    - apply den_eps in H2. subst w3. exists [], d. auto. }
  rewrite app_assoc, E. destruct H3 as (x1 & x2 & -> & H3 & _).
  cbn [rseq] in H3. destruct H3 as (y1 & y2 & -> & Hc & y3 & y4 & -> & Hs & y5 & y6 & -> & H3 & ->).
  apply den_lit in Hc. subst y1. apply den_digit3 in H3. destruct H3 as (d2 & d3 & d4 & -> & F).
  exists a, d1, y3, d2, d3, d4, x2. split; [repeat (rewrite <- app_assoc; cbn [app]); reflexivity|].
  split; [|auto]. destruct Hs as [Hs|Hs]; [apply den_lit in Hs; auto|apply den_eps in Hs; auto].
Qed.
Lemma has_thousands_infix w s : infix w s -> has_thousands w -> has_thousands s.
Proof.
  intros (x & y & ->) (a & d1 & sep & d2 & d3 & d4 & b & -> & H). exists (x ++ a), d1, sep, d2, d3, d4, (b ++ y).
  split; [|exact H]. repeat (rewrite <- app_assoc; cbn [app]). reflexivity.
Qed.
Lemma strip_commas_id s : ~ has_thousands s -> strip_commas s = s.
Proof.
  intro H. apply sub_id_den. intros w Hw _ Hd. apply H. eapply has_thousands_infix; [exact Hw|]. apply den_thousands, Hd.
Qed.

(** ** split_tuple: failures *)
Lemma scan_cnt s : forall cnt rm, fst (scan s cnt rm) = (cnt + balance s)%Z.
Proof.
  induction s as [|c s IH]; intros cnt rm; cbn [scan]; [cbn; lia|]. rewrite IH, step_balance, (balance_cons c s). lia.
Qed.
Lemma scan_rm s : forall cnt rm,
  snd (scan s cnt rm) = true <->
  rm = true /\ forall p c q, s = p ++ c :: q -> p <> [] -> (cnt + balance p <> 0)%Z.
Proof.
  induction s as [|c s IH]; intros cnt rm; cbn [scan snd].
  - split; [intros ->; split; [reflexivity|]|tauto]. intros p c q H. destruct p; discriminate.
  - rewrite IH, step_balance.
    destruct ((cnt + balance [c] =? 0)%Z && negb (Nat.eqb (length s) 0)) eqn:E.
    + apply andb_true_iff in E. destruct E as [E1 E2]. apply Z.eqb_eq in E1. apply negb_true_iff, Nat.eqb_neq in E2.
      split; [intros [? _]; discriminate|]. intros [_ H]. exfalso. destruct s as [|d s]; [apply E2; reflexivity|].
      apply (H [c] d s); [reflexivity|discriminate|exact E1].
    + split; intros [-> H]; (split; [reflexivity|]).
      * intros p d q Hs Hp. destruct p as [|c' p]; [contradiction|]. cbn in Hs. injection Hs as <- Hs.
        rewrite balance_cons. destruct p as [|c' p].
        -- change (balance []) with 0%Z. rewrite Z.add_0_r. apply andb_false_iff in E. destruct E as [E|E].
           ++ apply Z.eqb_neq in E. exact E.
           ++ apply negb_false_iff, Nat.eqb_eq in E. rewrite Hs in E. cbn in E. discriminate.
        -- rewrite Z.add_assoc. eapply H; [exact Hs|discriminate].
      * intros p d q Hs Hp. rewrite <- Z.add_assoc, <- balance_cons. apply (H (c :: p) d q); [rewrite Hs; reflexivity|discriminate].
Qed.

Lemma split_tuple_raises s k e :
  split_tuple s k = Raise e <-> e = AssertionError /\ balance s <> 0%Z.
Proof.
  unfold split_tuple. destruct (scan (strip_commas s) 0 true) as [cnt rm] eqn:E.
  assert (Hc : cnt = balance s).
  { pose proof (scan_cnt (strip_commas s) 0 true) as H. rewrite E in H. cbn in H. rewrite strip_commas_balance in H. exact H. }
  destruct (Z.eqb_spec cnt 0) as [H0|H0]; cbn [negb].
  - destruct (unwrap rm (strip_commas s)) as [x k']. split.
    + destruct (split_commas x 0 []) as [|? [|? ?]]; discriminate.
    + intros [_ H]. congruence.
  - split; [intros [= <-]; split; congruence|intros [-> _]; reflexivity].
Qed.

(** ** split_tuple: outer brackets *)
(** [s] is the bracket pair of kind [k] around [m], and that pair matches. *)
Definition enclosed (k : kind) (m s : pystr) : Prop :=
  s = fst (pair_of k) :: m ++ [snd (pair_of k)] /\ well_nested m.

Lemma mid_cons a m b : mid (a :: m ++ [b]) = m.
Proof. unfold mid. cbn [tl]. apply removelast_last. Qed.
Lemma first_last_inv s a b : (1 < length s)%nat -> first_cp s = a -> last_cp s = b -> exists m, s = a :: m ++ [b].
Proof.
  destruct s as [|x s]; cbn [length]; [lia|]. intros Hl <- Hb. cbn [first_cp hd].
  destruct s as [|y s]; [cbn in Hl; lia|]. exists (removelast (y :: s)).
  unfold last_cp in Hb. change (last (x :: y :: s) 0) with (last (y :: s) 0) in Hb.
  rewrite <- Hb, <- app_removelast_last by discriminate. reflexivity.
Qed.
Lemma discrete_pos s : (forall p c q, s = p ++ c :: q -> (1 + balance p <> 0)%Z) ->
  forall p c q, s = p ++ c :: q -> (0 <= balance p)%Z.
Proof.
  intro H. induction p as [|d p IH] using rev_ind; intros c q Hs; [cbn; lia|].
  rewrite <- app_assoc in Hs. cbn in Hs. specialize (IH _ _ Hs).
  assert (N0 : (1 + balance (p ++ [d]) <> 0)%Z).
  { apply (H (p ++ [d]) c q). rewrite <- app_assoc. exact Hs. }
  rewrite balance_app in *. rewrite <- (Z.add_0_l (balance [d])) in N0 |- *. rewrite <- step_balance in *.
  unfold step in *. destruct (is_open d), (is_close d); lia.
Qed.
Lemma balance_pair k : balance [fst (pair_of k)] = 1%Z /\ balance [snd (pair_of k)] = (-1)%Z.
Proof. destruct k; split; reflexivity. Qed.

Lemma enclosed_iff k m s rm :
  s = fst (pair_of k) :: m ++ [snd (pair_of k)] -> balance s = 0%Z ->
  snd (scan s 0 true) = rm -> (rm = true <-> enclosed k m s).
Proof.
  intros Hs Hb Hrm. destruct (balance_pair k) as [B1 B2].
  assert (Bm : balance m = 0%Z).
  { rewrite Hs, balance_cons, balance_app, B1, B2 in Hb. lia. }
  rewrite <- Hrm, scan_rm. split.
  - intros [_ H]. split; [exact Hs|]. split; [exact Bm|].
    intros p q Hq. destruct q as [|c q].
    + rewrite app_nil_r in Hq. subst p. lia.
    + eapply discrete_pos with (s := m); [|exact Hq]. clear p c q Hq. intros p c q Hq.
      specialize (H (fst (pair_of k) :: p) c (q ++ [snd (pair_of k)])). rewrite balance_cons, B1 in H.
      rewrite Z.add_0_l in H. apply H; [|discriminate]. rewrite Hs, Hq. cbn. rewrite <- app_assoc. reflexivity.
  - intros [_ [_ Hn]]. split; [reflexivity|]. intros p c q Hp Hne. destruct p as [|d p]; [contradiction|].
    rewrite Hs in Hp. cbn in Hp. injection Hp as <- Hp.
    rewrite balance_cons, B1.
    assert ((0 <= balance p)%Z); [|lia].
    destruct (exists_last (l := c :: q)) as (q' & x & Eq); [discriminate|]. rewrite Eq in Hp.
    rewrite app_assoc in Hp. apply app_inj_tail in Hp. destruct Hp as [Hp _]. apply (Hn p q' Hp).
Qed.

Lemma pair_inj k k' m m' : fst (pair_of k) :: m ++ [snd (pair_of k)] = fst (pair_of k') :: m' ++ [snd (pair_of k')] -> k = k' /\ m = m'.
Proof.
  intro H. injection H as H1 H2. apply app_inj_tail in H2. destruct H2 as [-> _].
  destruct k, k'; try discriminate; auto.
Qed.

Lemma unwrap_spec s : balance s = 0%Z ->
  (exists k m, m <> [] /\ enclosed k m s /\ unwrap (snd (scan s 0 true)) s = (m, k)) \/
  ((forall k m, m <> [] -> ~ enclosed k m s) /\ unwrap (snd (scan s 0 true)) s = (s, KSet)).
Proof.
  intro Hb. unfold unwrap.
  assert (Hno : forall k m, enclosed k m s -> m <> [] ->
            snd (scan s 0 true) = true /\ Nat.ltb 2 (length s) = true /\ first_cp s = fst (pair_of k) /\ last_cp s = snd (pair_of k)).
  { intros k m He Hm. split; [eapply enclosed_iff; [apply (proj1 He)|exact Hb|reflexivity|exact He]|].
    destruct He as [-> _]. split.
    - apply Nat.ltb_lt. cbn. rewrite app_length. cbn. destruct m; [contradiction|cbn; lia].
    - split; [reflexivity|]. unfold last_cp. rewrite app_comm_cons. apply last_last. }
  destruct (snd (scan s 0 true)) eqn:Erm; cbn [andb].
  2:{ right. split; [|reflexivity]. intros k m Hm He. destruct (Hno k m He Hm). discriminate. }
  destruct (Nat.ltb 2 (length s)) eqn:El.
  2:{ right. split; [|reflexivity]. intros k m Hm He. destruct (Hno k m He Hm) as (_ & ? & _). discriminate. }
  apply Nat.ltb_lt in El.
  assert (Hyes : forall k, first_cp s = fst (pair_of k) -> last_cp s = snd (pair_of k) ->
                 exists m, m <> [] /\ enclosed k m s /\ mid s = m).
  { intros k H1 H2. destruct (first_last_inv s _ _ ltac:(lia) H1 H2) as (m & E). exists m. split.
    - intros ->. rewrite E in El. cbn in El. lia.
    - split; [eapply enclosed_iff; [exact E|exact Hb|exact Erm|reflexivity]|rewrite E; apply mid_cons]. }
  destruct ((first_cp s =? 91) && (last_cp s =? 93)) eqn:E1.
  { apply andb_true_iff in E1. rewrite !N.eqb_eq in E1. destruct E1 as [H1 H2].
    destruct (Hyes KList H1 H2) as (m & Hm & He & ->). left. exists KList, m. auto. }
  destruct ((first_cp s =? 40) && (last_cp s =? 41)) eqn:E2.
  { apply andb_true_iff in E2. rewrite !N.eqb_eq in E2. destruct E2 as [H1 H2].
    destruct (Hyes KTuple H1 H2) as (m & Hm & He & ->). left. exists KTuple, m. auto. }
  destruct ((first_cp s =? 123) && (last_cp s =? 125)) eqn:E3.
  { apply andb_true_iff in E3. rewrite !N.eqb_eq in E3. destruct E3 as [H1 H2].
    destruct (Hyes KSet H1 H2) as (m & Hm & He & ->). left. exists KSet, m. auto. }
  right. split; [|reflexivity]. intros k m Hm He. destruct (Hno k m He Hm) as (_ & _ & H1 & H2).
  rewrite <- N.eqb_eq in H1, H2. destruct k; cbn [pair_of fst snd] in H1, H2; rewrite H1, H2 in *; discriminate.
Qed.

Definition list_or_str (k : kind) (x : pystr) (l : list pystr) : splitted :=
  match l with _ :: _ :: _ => SSeq k l | _ => SStr x end.
Lemma split_tuple_shape s exp : balance s = 0%Z ->
  (exists k m, m <> [] /\ enclosed k m (strip_commas s) /\
     split_tuple s exp = Ret (list_or_str (match exp with Some k' => k' | None => k end) m (split_commas m 0 []))) \/
  ((forall k m, m <> [] -> ~ enclosed k m (strip_commas s)) /\
     split_tuple s exp = Ret (list_or_str (match exp with Some k' => k' | None => KSet end) (strip_commas s) (split_commas (strip_commas s) 0 []))).
Proof.
  intro Hb. rewrite <- strip_commas_balance in Hb. unfold split_tuple, list_or_str.
  pose proof (scan_cnt (strip_commas s) 0 true) as Hc. rewrite Hb in Hc.
  destruct (unwrap_spec _ Hb) as [(k & m & Hm & He & Hu)|[Hno Hu]];
    destruct (scan (strip_commas s) 0 true) as [cnt rm]; cbn [fst snd] in *; subst cnt;
    cbn [Z.eqb Z.add negb]; rewrite Hu.
  - left. exists k, m. repeat split; auto; try apply He. destruct (split_commas m 0 []) as [|? [|? ?]]; reflexivity.
  - right. split; [exact Hno|]. destruct (split_commas (strip_commas s) 0 []) as [|? [|? ?]]; reflexivity.
Qed.

(** ** Round trip *)
Lemma split_commas_elem x : forall rest cnt stack,
  (forall p q, x = p ++ 44 :: q -> (cnt + balance p <> 0)%Z) ->
  split_commas (x ++ rest) cnt stack = split_commas rest (cnt + balance x) (rev x ++ stack).
Proof.
  induction x as [|c x IH]; intros rest cnt stack H; cbn [app]; [cbn; rewrite Z.add_0_r; reflexivity|].
  cbn [split_commas]. destruct ((c =? 44) && (cnt =? 0)%Z) eqn:E.
  - apply andb_true_iff in E. destruct E as [E1 E2]. apply N.eqb_eq in E1. apply Z.eqb_eq in E2. subst.
    exfalso. apply (H [] x); reflexivity.
  - rewrite step_balance, IH.
    + rewrite (balance_cons c x), Z.add_assoc. cbn [rev]. rewrite <- app_assoc. reflexivity.
    + intros p q ->. specialize (H (c :: p) q eq_refl). rewrite balance_cons in H. lia.
Qed.
Lemma split_commas_join l : l <> [] ->
  (forall x, In x l -> balance x = 0%Z /\ ~ top_comma x) -> last l [] <> [] ->
  split_commas (join [44] l) 0 [] = map strip l.
Proof.
  intros Hl H Hlast. induction l as [|x l IH]; [contradiction|].
  destruct (H x (or_introl eq_refl)) as [Bx Tx].
  assert (Hx : forall p q, x = p ++ 44 :: q -> (0 + balance p <> 0)%Z).
  { intros p q E B. apply Tx. exists p, q. auto. }
  destruct l as [|y l].
  - cbn [join map last] in *. rewrite <- (app_nil_r x) at 1. rewrite split_commas_elem by exact Hx.
    cbn [split_commas]. rewrite app_nil_r. destruct (rev x) as [|c r] eqn:E.
    + apply (f_equal (@rev N)) in E. rewrite rev_involutive in E. contradiction.
    + rewrite <- E, rev_involutive. reflexivity.
  - change (join [44] (x :: y :: l)) with (x ++ [44] ++ join [44] (y :: l)).
    rewrite split_commas_elem by exact Hx. rewrite Bx, app_nil_r. cbn [app split_commas].
    change ((44 =? 44) && (0 + 0 =? 0)%Z) with true. cbv iota. rewrite rev_involutive.
    cbn [map]. f_equal. change (0 + 0)%Z with 0%Z. apply IH; [discriminate| |exact Hlast].
    intros z Hz. apply H. right; exact Hz.
Qed.
Lemma well_nested_app a b : well_nested a -> well_nested b -> well_nested (a ++ b).
Proof.
  intros [A1 A2] [B1 B2]. split; [rewrite balance_app; lia|]. intros p q H.
  destruct (app_eq_app _ _ _ _ H) as (r & [[Er _]|[Er Eb]]).
  - apply (A2 p r Er).
  - rewrite Er, balance_app. specialize (B2 r q Eb). lia.
Qed.
Lemma well_nested_comma : well_nested [44].
Proof. split; [reflexivity|]. intros p q H. destruct p as [|c [|d p]]; [cbn; lia|cbn in H; injection H as <- _; cbn; lia|discriminate]. Qed.
Lemma well_nested_nil : well_nested [].
Proof. split; [reflexivity|]. intros p q H. destruct p; [cbn; lia|discriminate]. Qed.
Lemma well_nested_join l : Forall well_nested l -> well_nested (join [44] l).
Proof.
  induction 1 as [|x l Hx F IH]; [apply well_nested_nil|]. destruct l as [|y l]; [exact Hx|].
  change (join [44] (x :: y :: l)) with (x ++ [44] ++ join [44] (y :: l)).
  apply well_nested_app; [exact Hx|]. apply well_nested_app; [apply well_nested_comma|exact IH].
Qed.
Lemma balance_join l : Forall (fun x => balance x = 0%Z) l -> balance (join [44] l) = 0%Z.
Proof.
  induction 1 as [|x l Hx F IH]; [reflexivity|]. destruct l as [|y l]; [exact Hx|].
  change (join [44] (x :: y :: l)) with (x ++ [44] ++ join [44] (y :: l)).
  rewrite !balance_app, Hx, IH. reflexivity.
Qed.
Lemma list_or_str_two k x l : (2 <= length l)%nat -> list_or_str k x l = SSeq k l.
Proof. destruct l as [|? [|? ?]]; cbn; try lia. reflexivity. Qed.
Lemma join_nonnil l : (2 <= length l)%nat -> join [44] l <> [].
Proof. destruct l as [|x [|y l]]; cbn [length]; try lia. intros _. destruct x; discriminate. Qed.

Definition wrap (k : kind) (s : pystr) : pystr := fst (pair_of k) :: s ++ [snd (pair_of k)].

Lemma split_tuple_wrapped k exp l :
  (2 <= length l)%nat -> Forall well_nested l -> (forall x, In x l -> ~ top_comma x) -> last l [] <> [] ->
  ~ has_thousands (wrap k (join [44] l)) ->
  split_tuple (wrap k (join [44] l)) exp = Ret (SSeq (match exp with Some k' => k' | None => k end) (map strip l)).
Proof.
  intros Hl Hw Ht Hlast Hth.
  assert (Hb : balance (wrap k (join [44] l)) = 0%Z).
  { unfold wrap. destruct (balance_pair k) as [B1 B2]. rewrite balance_cons, balance_app, B1, B2.
    rewrite (proj1 (well_nested_join l Hw)). reflexivity. }
  assert (Hsc : split_commas (join [44] l) 0 [] = map strip l).
  { apply split_commas_join; [destruct l; [cbn in Hl; lia|discriminate]| |exact Hlast].
    intros x Hx. split; [rewrite Forall_forall in Hw; apply (Hw x Hx)|auto]. }
  destruct (split_tuple_shape (wrap k (join [44] l)) exp Hb) as [(k' & m & Hm & He & ->)|[Hno _]];
    rewrite strip_commas_id in * by exact Hth.
  - destruct He as [He _]. unfold wrap in He. apply pair_inj in He. destruct He as [<- <-].
    rewrite Hsc, list_or_str_two by (rewrite map_length; exact Hl). reflexivity.
  - exfalso. apply (Hno k (join [44] l)); [apply join_nonnil, Hl|]. split; [reflexivity|apply well_nested_join, Hw].
Qed.

Lemma split_tuple_bare exp l :
  (2 <= length l)%nat -> Forall (fun x => balance x = 0%Z) l -> (forall x, In x l -> ~ top_comma x) -> last l [] <> [] ->
  ~ has_thousands (join [44] l) ->
  split_tuple (join [44] l) exp = Ret (SSeq (match exp with Some k' => k' | None => KSet end) (map strip l)).
Proof.
  intros Hl Hw Ht Hlast Hth.
  assert (Hb : balance (join [44] l) = 0%Z) by (apply balance_join, Hw).
  assert (Hsc : split_commas (join [44] l) 0 [] = map strip l).
  { apply split_commas_join; [destruct l; [cbn in Hl; lia|discriminate]| |exact Hlast].
    intros x Hx. split; [rewrite Forall_forall in Hw; apply (Hw x Hx)|auto]. }
  destruct (split_tuple_shape (join [44] l) exp Hb) as [(k' & m & Hm & He & _)|[Hno ->]];
    rewrite strip_commas_id in * by exact Hth.
  - exfalso. destruct l as [|x [|y l]]; try (cbn in Hl; lia).
    change (join [44] (x :: y :: l)) with (x ++ [44] ++ join [44] (y :: l)) in He.
    set (J := join [44] (y :: l)) in He. clearbody J.
    destruct He as [He [_ Hn]]. destruct (balance_pair k') as [B1 B2].
    inversion Hw as [|? ? Bx _]; subst.
    destruct x as [|c x].
    + cbn in He. injection He as He _. destruct k'; discriminate.
    + cbn [app] in He. injection He as -> He.
      assert (Bx' : balance x = (-1)%Z) by (rewrite balance_cons, B1 in Bx; lia).
      destruct (exists_last (l := 44 :: J)) as (q & z & Eq); [discriminate|].
      rewrite Eq, app_assoc in He. apply app_inj_tail in He. destruct He as [He _].
      specialize (Hn x q (eq_sym He)). lia.
  - rewrite Hsc, list_or_str_two by (rewrite map_length; exact Hl). reflexivity.
Qed.

(** ** str.split *)
(** [sep] occurs in [x ++ sep] at the very end only. *)
Definition clean (sep x : pystr) : Prop := forall p q, x ++ sep = p ++ sep ++ q -> q = [].

Lemma split_go_skip sep s : forall k cur, (k <= length s)%nat ->
  split_go sep k s cur = split_go sep O (skipn k s) cur.
Proof.
  induction s as [|c s IH]; intros [|k] cur H; cbn in H; try lia; try reflexivity.
  cbn [split_go skipn]. apply IH. lia.
Qed.
Lemma starts_with_app p t : starts_with p (p ++ t) = true.
Proof. apply starts_with_spec. eauto. Qed.
Lemma split_go_sep sep rest cur : sep <> [] ->
  split_go sep O (sep ++ rest) cur = rev cur :: split_go sep O rest [].
Proof.
  intro H. destruct sep as [|c sep]; [contradiction|]. cbn [app split_go].
  rewrite (starts_with_app (c :: sep) rest : starts_with (c :: sep) (c :: sep ++ rest) = true).
  f_equal. cbn [length]. rewrite Nat.sub_succ, Nat.sub_0_r.
  rewrite split_go_skip by (rewrite app_length; lia). rewrite skipn_app, Nat.sub_diag, skipn_all. reflexivity.
Qed.
Lemma split_go_elem sep x rest : clean sep x -> forall cur,
  sep <> [] -> split_go sep O (x ++ sep ++ rest) cur = rev (rev x ++ cur) :: split_go sep O rest [].
Proof.
  intros H cur Hs. revert cur. induction x as [|c x IH]; intro cur.
  - cbn [app rev]. apply split_go_sep, Hs.
  - cbn [app split_go]. destruct (starts_with sep (c :: x ++ sep ++ rest)) eqn:E.
    + exfalso. apply starts_with_spec in E. destruct E as (t & E).
      rewrite app_comm_cons, app_assoc in E.
      apply app_eq_app in E. destruct E as (r & [[E1 E2]|[E1 E2]]).
      * destruct r as [|d r].
        -- rewrite app_nil_r in E1. apply (f_equal (@length N)) in E1. rewrite app_length in E1. cbn in E1. lia.
        -- specialize (H [] (d :: r) E1). discriminate.
      * apply (f_equal (@length N)) in E1. rewrite !app_length in E1. cbn in E1. lia.
    + rewrite IH.
      * cbn [rev]. rewrite <- app_assoc. reflexivity.
      * intros p q E'. apply (H (c :: p) q). cbn. rewrite E'. reflexivity.
Qed.
Lemma split_go_last sep x : (forall p q, x <> p ++ sep ++ q) -> forall cur, split_go sep O x cur = [rev (rev x ++ cur)].
Proof.
  induction x as [|c x IH]; intros H cur; [reflexivity|]. cbn [split_go].
  destruct (starts_with sep (c :: x)) eqn:E.
  - apply starts_with_spec in E. destruct E as (t & E). exfalso. apply (H [] t E).
  - rewrite IH; [cbn [rev]; rewrite <- app_assoc; reflexivity|]. intros p q E'. apply (H (c :: p) q). rewrite E'. reflexivity.
Qed.
Lemma split_on_join sep l : sep <> [] -> l <> [] -> Forall (clean sep) l ->
  (forall p q, last l [] <> p ++ sep ++ q) -> split_on sep (join sep l) = l.
Proof.
  intros Hs Hl F Hlast. unfold split_on. induction F as [|x l Hx F IH]; [contradiction|].
  destruct l as [|y l].
  - cbn [join]. rewrite split_go_last by exact Hlast. rewrite app_nil_r, rev_involutive. reflexivity.
  - change (join sep (x :: y :: l)) with (x ++ sep ++ join sep (y :: l)).
    rewrite split_go_elem by assumption. rewrite app_nil_r, rev_involutive. f_equal. apply IH; [discriminate|exact Hlast].
Qed.

Lemma clean_no_infix sep x : clean sep x -> sep <> [] -> forall p q, x <> p ++ sep ++ q.
Proof.
  intros H Hs p q E. specialize (H p (q ++ sep)). rewrite E in H. rewrite <- !app_assoc in H.
  specialize (H eq_refl). destruct q; [cbn in H; contradiction|discriminate].
Qed.
Lemma clean_single c x : ~ In c x -> clean [c] x.
Proof.
  intros H p q E. destruct (app_eq_app _ _ _ _ E) as (r & [[E1 E2]|[E1 E2]]).
  - destruct r as [|d r].
    + cbn in E2. injection E2 as <-. reflexivity.
    + cbn in E2. injection E2 as <- E2. exfalso. apply H. rewrite E1. apply in_or_app; right; left; reflexivity.
  - destruct r as [|d r]; cbn in E2; injection E2 as E2; [symmetry; exact H0||auto|].
    destruct r; discriminate.
Qed.
(** A double backslash *)
Definition row_sep : pystr := u "\\".
Lemma row_sep_eq : row_sep = [92; 92].
Proof. reflexivity. Qed.
Lemma clean_row_sep x : ~ infix row_sep x -> (forall y, x <> y ++ [92]) -> clean row_sep x.
Proof.
  rewrite row_sep_eq. intros H He p q E.
  destruct (app_eq_app _ _ _ _ E) as (r & [[E1 E2]|[E1 E2]]).
  - destruct r as [|d r]; [cbn in E2; injection E2 as <-; reflexivity|].
    destruct r as [|d' r].
    + cbn in E2. injection E2 as <- E2. exfalso. apply (He p). exact E1.
    + cbn in E2. injection E2 as <- <- E2. exfalso. apply H. exists p, r. exact E1.
  - apply (f_equal (@length N)) in E2. rewrite !app_length in E2. cbn in E2. destruct q; [reflexivity|cbn in E2; lia].
Qed.

(** ** Matrices *)
(** Environment name prefix: nothing or one ASCII letter (pmatrix, bmatrix, ...). *)
Definition env_prefix (e : pystr) : Prop :=
  e = [] \/ exists c, e = [c] /\ (97 <= c <= 122 \/ 65 <= c <= 90).
Definition matrix_env (e1 e2 body : pystr) : pystr :=
  u "\begin{" ++ e1 ++ u "matrix}" ++ body ++ u "\end{" ++ e2 ++ u "matrix}".
Definition table_body (rows : list (list pystr)) : pystr := join row_sep (map (join [38]) rows).

Lemma in_letter_opt pre s cs st' : In st' (matches (ROpt letter) (MSt pre s cs)) <->
  exists e s', s = e ++ s' /\ env_prefix e /\ st' = MSt (rev e ++ pre) s' cs.
Proof.
  rewrite in_opt. unfold letter. rewrite in_chr. split.
  - intros [(c & s' & -> & Hc & ->)| ->].
    + exists [c], s'. split; [reflexivity|]. split; [|reflexivity]. right. exists c. split; [reflexivity|].
      cbn in Hc. rewrite orb_true_iff, !andb_true_iff, !N.leb_le in Hc. lia.
    + exists [], s. split; [reflexivity|]. split; [left|]; reflexivity.
  - intros (e & s' & -> & [->|(c & -> & Hc)] & ->).
    + right. reflexivity.
    + left. exists c, s'. split; [reflexivity|]. split; [|reflexivity].
      cbn. rewrite orb_true_iff, !andb_true_iff, !N.leb_le. lia.
Qed.
Lemma in_matrix_re S st' : In st' (matches matrix_re (MSt [] S [])) <->
  exists e1 g e2 tail, S = matrix_env e1 e2 g ++ tail /\ env_prefix e1 /\ env_prefix e2 /\ at_end tail = true /\
     st' = MSt (rev (matrix_env e1 e2 g)) tail [(1%nat, g)].
Proof.
  unfold matrix_re, rs. repeat setoid_rewrite in_rseq_cons. setoid_rewrite in_rseq_nil. split.
  - intros (st1 & H1 & st2 & H2 & st3 & H3 & st4 & H4 & st5 & H5 & st6 & H6 & st7 & H7 & st8 & H8 & st9 & H9 & ->).
    subst st1. apply in_rstr in H2. destruct H2 as (s2 & -> & ->).
    apply in_letter_opt in H3. destruct H3 as (e1 & s3 & -> & He1 & ->).
    apply in_rstr in H4. destruct H4 as (s4 & -> & ->).
    apply in_grp in H5. destruct H5 as (stg & w & Hg & Ew & ->).
    apply in_star_chr in Hg. destruct Hg as (g & s5 & -> & _ & ->). cbn [after before caps] in *.
    apply app_inv_tail in Ew. subst w.
    apply in_rstr in H6. destruct H6 as (s6 & -> & ->).
    apply in_letter_opt in H7. destruct H7 as (e2 & s7 & -> & He2 & ->).
    apply in_rstr in H8. destruct H8 as (s8 & -> & ->).
    apply in_eol in H9. destruct H9 as [Hend ->].
    exists e1, g, e2, s8. unfold matrix_env. rewrite <- !app_assoc. repeat split; auto.
    f_equal. rewrite !rev_app_distr, <- !app_assoc, app_nil_r. reflexivity.
  - intros (e1 & g & e2 & tail & -> & He1 & He2 & Hend & ->). unfold matrix_env. rewrite <- !app_assoc.
    eexists. split; [reflexivity|].
    eexists. split; [apply in_rstr; eexists; split; reflexivity|].
    eexists. split; [apply in_letter_opt; exists e1; eexists; split; [reflexivity|split; [exact He1|reflexivity]]|].
    eexists. split; [apply in_rstr; eexists; split; reflexivity|].
    eexists. split.
    { apply in_grp. eexists. exists g. split; [apply in_star_chr; exists g; eexists; split; [reflexivity|split; [|reflexivity]]|].
      - apply forallb_forall. reflexivity.
      - split; reflexivity. }
    cbn [after before caps].
    eexists. split; [apply in_rstr; eexists; split; reflexivity|].
    eexists. split; [apply in_letter_opt; exists e2; eexists; split; [reflexivity|split; [exact He2|reflexivity]]|].
    eexists. split; [apply in_rstr; eexists; split; reflexivity|].
    eexists. split; [apply in_eol; split; [exact Hend|reflexivity]|].
    f_equal. rewrite !rev_app_distr, <- !app_assoc, app_nil_r. reflexivity.
Qed.

Lemma env_prefix_unique e e' X X' : env_prefix e -> env_prefix e' ->
  e ++ u "matrix}" ++ X = e' ++ u "matrix}" ++ X' -> e = e' /\ X = X'.
Proof.
  change (u "matrix}") with [109;97;116;114;105;120;125].
  intros [->|(c & -> & _)] [->|(c' & -> & _)] H; cbn in H.
  - injection H as ->. auto.
  - injection H as <- H. discriminate.
  - injection H as -> H. discriminate.
  - injection H as -> ->. auto.
Qed.
Lemma env_suffix_unique e e' g g' : env_prefix e -> env_prefix e' ->
  g ++ u "\end{" ++ e ++ u "matrix}" = g' ++ u "\end{" ++ e' ++ u "matrix}" -> e = e' /\ g = g'.
Proof.
  intros He He' H. rewrite !app_assoc in H. apply app_inv_tail in H. revert H.
  assert (Hlit : exists x, u "\end{" = x ++ [123]) by (exists [92;101;110;100]; reflexivity).
  destruct Hlit as (x & ->).
  destruct He as [->|(c & -> & Hc)], He' as [->|(c' & -> & Hc')]; rewrite ?app_nil_r; intro H.
  - apply app_inv_tail in H. auto.
  - rewrite app_assoc in H. apply app_inj_tail in H. destruct H as [_ <-]. lia.
  - rewrite (app_assoc g' x) in H. apply app_inj_tail in H. destruct H as [_ ->]. lia.
  - apply app_inj_tail in H. destruct H as [H ->]. apply app_inv_tail in H. auto.
Qed.
Lemma matrix_re_search e1 e2 body : env_prefix e1 -> env_prefix e2 ->
  exists st, re_search matrix_re (matrix_env e1 e2 body) = Some st /\ grp 1 st = body.
Proof.
  intros H1 H2. rewrite anchored_search by reflexivity.
  exists (MSt (rev (matrix_env e1 e2 body)) [] [(1%nat, body)]). split; [|reflexivity].
  apply match_at_unique.
  - apply in_matrix_re. exists e1, body, e2, []. rewrite app_nil_r. auto.
  - intros st' H. apply in_matrix_re in H. destruct H as (e1' & g & e2' & tail & E & H1' & H2' & Hend & ->).
    assert (tail = []).
    { destruct tail as [|c tail]; [reflexivity|]. destruct tail; [|discriminate]. cbn in Hend. apply N.eqb_eq in Hend. subst c.
      exfalso. unfold matrix_env in E at 1.
      change (u "matrix}") with ([109;97;116;114;105;120] ++ [125]) in E at 2.
      rewrite !app_assoc in E. apply app_inj_tail in E. destruct E as [_ E]. discriminate. }
    subst tail. rewrite app_nil_r in E. unfold matrix_env in E. apply app_inv_head in E.
    apply env_prefix_unique in E; auto. destruct E as [<- E]. apply env_suffix_unique in E; auto. destruct E as [<- <-]. reflexivity.
Qed.

Definition cell_of_row (row : list pystr) : cell := match row with [c] => CStr c | _ => CRow row end.
Lemma matrix_rows_table rows : rows <> [] ->
  Forall (fun row => row <> [] /\ Forall (fun x => ~ In 38 x) row) rows ->
  Forall (fun row => clean row_sep (join [38] row)) rows ->
  matrix_rows (table_body rows) = map cell_of_row rows.
Proof.
  intros Hne F1 F2. unfold matrix_rows, table_body. fold row_sep. rewrite split_on_join.
  - rewrite map_map. apply map_ext_in. intros row Hin. rewrite Forall_forall in F1. destruct (F1 row Hin) as [Hr Hx].
    rewrite split_on_join; [destruct row as [|? [|]]; reflexivity|discriminate|exact Hr| |].
    + eapply Forall_impl; [|exact Hx]. intros x Hc. apply clean_single, Hc.
    + intros p q E. rewrite Forall_forall in Hx. apply (Hx (last row [])).
      * destruct (exists_last Hr) as (r & x & ->). rewrite last_last. apply in_or_app; right; left; reflexivity.
      * rewrite E. apply in_or_app; right; left; reflexivity.
  - discriminate.
  - destruct rows; [contradiction|discriminate].
  - apply Forall_map. exact F2.
  - intros p q E. destruct (exists_last Hne) as (r & x & ->). rewrite map_app in E. cbn [map] in E. rewrite last_last in E.
    rewrite Forall_app in F2. destruct F2 as [_ F2]. inversion F2; subst.
    eapply (clean_no_infix row_sep (join [38] x)); [assumption|discriminate|exact E].
Qed.
Lemma check_dim_const n l : (0 < n)%nat -> Forall (fun c => n_cols c = n) l -> forall k, (k = 0 \/ k = n)%nat -> check_dim k l = true.
Proof.
  intros Hn F. induction F as [|c l Hc F IH]; intros k Hk; [reflexivity|]. cbn [check_dim]. rewrite Hc.
  destruct (negb (Nat.eqb k 0) && negb (Nat.eqb n k)) eqn:E.
  - exfalso. apply andb_true_iff in E. rewrite !negb_true_iff, !Nat.eqb_neq in E. lia.
  - apply IH. auto.
Qed.

(** What the answer should be. *)
Definition table_result (rows : list (list pystr)) : matres :=
  match rows with
  | [[c]] => MStr c
  | [row] => MRows (map CStr row)
  | _ => MRows (map cell_of_row rows)
  end.

Lemma n_cols_row row : row <> [] -> n_cols (cell_of_row row) = length row.
Proof. destruct row as [|a [|b row]]; [contradiction|reflexivity|reflexivity]. Qed.

Lemma split_matrix_table e1 e2 rows n : (0 < n)%nat -> env_prefix e1 -> env_prefix e2 ->
  rows <> [] -> Forall (fun row => length row = n) rows ->
  Forall (Forall (fun x => ~ In 38 x)) rows ->
  Forall (fun row => clean row_sep (join [38] row)) rows ->
  split_matrix (matrix_env e1 e2 (table_body rows)) = Ret (table_result rows).
Proof.
  intros Hn H1 H2 Hne Hlen Hamp Hclean. unfold split_matrix.
  destruct (matrix_re_search e1 e2 (table_body rows) H1 H2) as (st & -> & ->). f_equal.
  rewrite matrix_rows_table; [| exact Hne | | exact Hclean].
  2:{ rewrite Forall_forall in *. intros row Hin. split; [|apply Hamp, Hin]. intros ->. specialize (Hlen _ Hin). cbn in Hlen. lia. }
  assert (Hdim : check_dim 0 (map cell_of_row rows) = true).
  { apply (check_dim_const n); auto. apply Forall_map. eapply Forall_impl; [|exact Hlen].
    intros row E. rewrite n_cols_row; [exact E|]. intros ->. cbn in E. lia. }
  unfold finish, table_result. destruct rows as [|row rows]; [contradiction|].
  destruct rows as [|row2 rows].
  - cbn [map]. inversion Hlen; subst. destruct row as [|a [|b row]]; [cbn in Hn; lia|reflexivity|]. cbn [cell_of_row].
    rewrite (check_dim_const 1); [reflexivity|lia| |lia]. apply Forall_map, Forall_forall. reflexivity.
  - cbn [map] in *. destruct (cell_of_row row) eqn:E; rewrite Hdim; destruct row as [|a [|b row]]; reflexivity.
Qed.

(** Cells free of the two separators *)
Lemma infix_bs_join l : infix [92; 92] (join [38] l) -> Exists (fun x => infix [92; 92] x) l.
Proof.
  induction l as [|x l IH]; intro H.
  - destruct H as (a & b & E). destruct a; discriminate.
  - destruct l as [|y l]; [left; exact H|].
    change (join [38] (x :: y :: l)) with (x ++ [38] ++ join [38] (y :: l)) in H.
    set (J := join [38] (y :: l)) in *. clearbody J. destruct H as (a & b & E).
    destruct (app_eq_app _ _ _ _ E) as (r & [[E1 E2]|[E1 E2]]).
    + destruct r as [|d r].
      * cbn in E2. discriminate.
      * cbn in E2. destruct r as [|d' r].
        -- injection E2 as _ E2. discriminate.
        -- injection E2 as <- <- E2. left. exists a, r. exact E1.
    + destruct r as [|d r]; [discriminate|]. cbn in E2. injection E2 as <- E2. right. apply IH. exists r, b. exact E2.
Qed.
Lemma join_last_bs l y : join [38] l = y ++ [92] -> exists z, last l [] = z ++ [92].
Proof.
  revert y; induction l as [|x l IH]; intros y H; [destruct y; discriminate|].
  destruct l as [|x' l]; [exists y; exact H|].
  change (join [38] (x :: x' :: l)) with (x ++ [38] ++ join [38] (x' :: l)) in H.
  change (last (x :: x' :: l) []) with (last (x' :: l) []).
  destruct (app_eq_app _ _ _ _ H) as (r & [[E1 E2]|[E1 E2]]).
  - destruct r as [|d r]; [discriminate|]. cbn in E2. injection E2 as <- E2. destruct r; discriminate.
  - destruct r as [|d r]; [discriminate|]. cbn [app] in E2. injection E2 as <- E2. eapply IH, E2.
Qed.
Definition plain_cell (x : pystr) : Prop :=
  ~ In 38 x /\ ~ infix row_sep x /\ (forall y, x <> y ++ [92]).
Lemma plain_cells_clean row : Forall plain_cell row -> clean row_sep (join [38] row).
Proof.
  intro F. apply clean_row_sep.
  - intro H. rewrite row_sep_eq in H. apply infix_bs_join in H. apply Exists_exists in H. destruct H as (x & Hx & Hi).
    rewrite Forall_forall in F. destruct (F x Hx) as (_ & H & _). apply H, Hi.
  - intros y E. apply join_last_bs in E. destruct E as (z & E). destruct row as [|a row] using rev_ind; [destruct z; discriminate|].
    rewrite last_last in E. rewrite Forall_app in F. destruct F as [_ F]. inversion F; subst. destruct H1 as (_ & _ & H). apply (H z eq_refl).
Qed.
Lemma split_matrix_cells e1 e2 rows n : (0 < n)%nat -> env_prefix e1 -> env_prefix e2 ->
  rows <> [] -> Forall (fun row => length row = n) rows -> Forall (Forall plain_cell) rows ->
  split_matrix (matrix_env e1 e2 (table_body rows)) = Ret (table_result rows).
Proof.
  intros Hn H1 H2 Hne Hlen F. apply (split_matrix_table e1 e2 rows n); auto.
  - eapply Forall_impl; [|exact F]. intros row Fr. eapply Forall_impl; [|exact Fr]. intros x (H & _). exact H.
  - eapply Forall_impl; [|exact F]. intros row Fr. apply plain_cells_clean, Fr.
Qed.

(** ** Thousands separators *)
Notation digits := (Forall (fun d => is_digit d = true)).
Notation non_digits := (Forall (fun d => is_digit d = false)).
(** A three-digit group: digits preceded by a comma and possibly one space. *)
Definition group_ok (g : pystr * pystr) : Prop :=
  (fst g = [] \/ fst g = [32]) /\ length (snd g) = 3%nat /\ digits (snd g).
Definition groups_text (gs : list (pystr * pystr)) : pystr := flat_map (fun g => 44 :: fst g ++ snd g) gs.
Definition groups_plain (gs : list (pystr * pystr)) : pystr := flat_map (fun g => fst g ++ snd g) gs.
Definition head_ok (h : pystr) : Prop := (1 <= length h <= 3)%nat /\ digits h.
Definition no_comma_first (s : pystr) : Prop := match s with c :: _ => c <> 44 | [] => True end.

Definition group_re : regex := rseq [lit 44; ROpt sp; digit3].
Lemma group_re_step g pre rest cs : group_ok g ->
  matches group_re (MSt pre (44 :: fst g ++ snd g ++ rest) cs) = [MSt (rev (44 :: fst g ++ snd g) ++ pre) rest cs].
Proof.
  destruct g as [s g]. cbn [fst snd]. intros (Hs & Hl & Hd). cbn [fst snd] in *.
  destruct g as [|d1 [|d2 [|d3 [|]]]]; try discriminate.
  inversion Hd as [|? ? H1 Hd1]; subst. inversion Hd1 as [|? ? H2 Hd2]; subst. inversion Hd2 as [|? ? H3 _]; subst.
  assert (d1 <> 32) by (intros ->; discriminate).
  assert (E : (32 =? d1) = false) by (apply N.eqb_neq; congruence).
  destruct Hs as [-> | ->]; unfold group_re, digit3, digit, ROpt, sp, lit; cbn [rseq matches after before caps app flat_map cls_in];
    rewrite !N.eqb_refl;
    repeat (first [rewrite E|rewrite N.eqb_refl|progress change (is_digit 32) with false|rewrite H1|rewrite H2|rewrite H3|progress cbn [flat_map matches after before caps app cls_in]]); reflexivity.
Qed.
Lemma group_re_stop pre s cs : no_comma_first s -> matches group_re (MSt pre s cs) = [].
Proof.
  intro H. unfold group_re, lit. cbn [rseq matches after]. destruct s as [|c s]; [reflexivity|]. cbn [cls_in].
  destruct (44 =? c) eqn:E; [apply N.eqb_eq in E; cbn in H; congruence|reflexivity].
Qed.
Lemma groups_star gs : Forall group_ok gs -> forall f pre rest cs, no_comma_first rest ->
  (length (groups_text gs ++ rest) <= f)%nat ->
  hd_error (star_matches (matches group_re) true f (MSt pre (groups_text gs ++ rest) cs)) = Some (MSt (rev (groups_text gs) ++ pre) rest cs).
Proof.
  induction 1 as [|g gs Hg F IH]; intros f pre rest cs Hr Hf.
  - cbn [groups_text flat_map app]. rewrite star_greedy_stop by (apply group_re_stop, Hr). reflexivity.
  - cbn [groups_text flat_map] in *. fold (groups_text gs) in *.
    cbn [app] in *. rewrite <- !app_assoc in *. destruct f as [|f]; [cbn in Hf; lia|].
    rewrite star_greedy_step with (st1 := MSt (rev (44 :: fst g ++ snd g) ++ pre) (groups_text gs ++ rest) cs).
    + rewrite IH; [|exact Hr|]. 
      * cbn [rev]. rewrite !rev_app_distr, <- !app_assoc. reflexivity.
      * cbn [length] in Hf. rewrite !app_length in Hf. rewrite app_length. lia.
    + apply group_re_step, Hg.
    + cbn [after length]. rewrite !app_length. lia.
Qed.
Lemma groups_plus gs pre rest cs : gs <> [] -> Forall group_ok gs -> no_comma_first rest ->
  hd_error (matches (RPlus group_re) (MSt pre (groups_text gs ++ rest) cs)) = Some (MSt (rev (groups_text gs) ++ pre) rest cs).
Proof.
  intros Hne F Hr. destruct F as [|g gs Hg F]; [contradiction|]. unfold RPlus.
  cbn [groups_text flat_map]. fold (groups_text gs). cbn [app]. rewrite <- !app_assoc.
  change (matches (RSeq group_re (RStar true group_re)) ?st) with (flat_map (matches (RStar true group_re)) (matches group_re st)).
  rewrite group_re_step by exact Hg. cbn [flat_map]. rewrite app_nil_r.
  change (matches (RStar true group_re) ?st) with (star_matches (matches group_re) true (length (after st)) st).
  rewrite groups_star; auto. cbn [rev]. rewrite !rev_app_distr, <- !app_assoc. reflexivity.
Qed.
Lemma flat_map_single {A} (l : list A) : flat_map (fun x => [x]) l = l.
Proof. induction l; cbn; congruence. Qed.
Lemma head_match T h pre X cs st : head_ok h -> (exists X', X = 44 :: X') ->
  hd_error (matches T (MSt (rev h ++ pre) X cs)) = Some st ->
  hd_error (matches (rseq [digit; ROpt (rseq [digit; ROpt digit]); T]) (MSt pre (h ++ X) cs)) = Some st.
Proof.
  intros [Hl Hd] (X' & ->) HT. unfold digit, ROpt. cbn [rseq].
  destruct h as [|a [|b [|c [|]]]]; cbn [length] in Hl; try lia; repeat match goal with H : digits (_ :: _) |- _ => inversion H; clear H; subst end;
    cbn [matches after before caps app flat_map cls_in rev] in *;
    repeat (match goal with H : is_digit ?x = true |- context[is_digit ?x] => rewrite H end;
            cbn [matches after before caps app flat_map cls_in rev] in * );
    change (is_digit 44) with false; cbn [matches after before caps app flat_map cls_in rev];
    repeat match goal with |- context[flat_map (fun st : mst => [st]) ?l] => rewrite (flat_map_single l) end;
    repeat apply hd_app; exact HT.
Qed.
Lemma thousands_match h gs pre rest : head_ok h -> gs <> [] -> Forall group_ok gs -> no_comma_first rest ->
  match_at thousands_re pre (h ++ groups_text gs ++ rest) = Some (MSt (rev (h ++ groups_text gs) ++ pre) rest []).
Proof.
  intros Hh Hne F Hr. unfold match_at, thousands_re. fold group_re. apply head_match; [exact Hh| |].
  - destruct gs as [|g gs]; [contradiction|]. eexists. reflexivity.
  - rewrite groups_plus by assumption. rewrite rev_app_distr, <- app_assoc. reflexivity.
Qed.
Lemma thousands_none pre s : match s with c :: _ => is_digit c = false | [] => True end -> match_at thousands_re pre s = None.
Proof.
  intro H. unfold match_at, thousands_re, digit. cbn [rseq matches after]. destruct s as [|c s]; [reflexivity|].
  cbn [cls_in]. rewrite H. reflexivity.
Qed.
Lemma sub_go_non_digits f a : non_digits a -> forall pre s,
  sub_go thousands_re f O pre (a ++ s) = a ++ sub_go thousands_re f O (rev a ++ pre) s.
Proof.
  induction 1 as [|c a Hc F IH]; intros pre s; [reflexivity|]. cbn [app].
  rewrite sub_go_none by (apply thousands_none, Hc). rewrite IH. cbn [rev]. rewrite <- app_assoc. reflexivity.
Qed.
Lemma replace_comma_app x y : replace [44] [] (x ++ y) = replace [44] [] x ++ replace [44] [] y.
Proof. rewrite !replace_single_del. apply filter_app. Qed.
Lemma replace_comma_id x : ~ In 44 x -> replace [44] [] x = x.
Proof.
  rewrite replace_single_del. induction x as [|c x IH]; intro H; [reflexivity|]. cbn.
  destruct (c =? 44) eqn:E; [apply N.eqb_eq in E; subst; exfalso; apply H; left; reflexivity|]. cbn. f_equal. apply IH. intro; apply H; right; assumption.
Qed.
Lemma digits_no_comma x : digits x -> ~ In 44 x.
Proof. intros F H. rewrite Forall_forall in F. specialize (F _ H). discriminate. Qed.
Lemma replace_groups gs : Forall group_ok gs -> replace [44] [] (groups_text gs) = groups_plain gs.
Proof.
  induction 1 as [|g gs (Hs & _ & Hd) F IH]; [reflexivity|]. cbn [groups_text groups_plain flat_map]. fold (groups_text gs) (groups_plain gs).
  rewrite replace_comma_app, IH. f_equal. change (44 :: fst g ++ snd g) with ([44] ++ fst g ++ snd g). rewrite !replace_comma_app.
  rewrite (replace_comma_id (snd g)) by (apply digits_no_comma, Hd). rewrite (replace_comma_id (fst g)); [reflexivity|].
  destruct Hs as [-> | ->]; cbn; intuition discriminate.
Qed.
Lemma strip_commas_grouped a h gs b : non_digits a -> head_ok h -> gs <> [] -> Forall group_ok gs -> non_digits b -> no_comma_first b ->
  strip_commas (a ++ h ++ groups_text gs ++ b) = a ++ h ++ groups_plain gs ++ b.
Proof.
  intros Ha Hh Hne F Hb Hb'. unfold strip_commas, re_sub_fun. rewrite sub_go_non_digits by exact Ha. f_equal.
  rewrite (app_assoc h). rewrite (sub_go_match _ _ _ (h ++ groups_text gs) b (MSt (rev (h ++ groups_text gs) ++ rev a ++ []) b [])).
  - rewrite replace_comma_app, replace_groups by exact F. rewrite replace_comma_id by (apply digits_no_comma, Hh). rewrite <- app_assoc. do 2 f_equal.
    rewrite <- (app_nil_r b) at 1. rewrite sub_go_non_digits by exact Hb. cbn [sub_go]. apply app_nil_r.
  - rewrite <- app_assoc. apply thousands_match; assumption.
  - reflexivity.
  - intro E. destruct h; [destruct Hh as [Hh _]; cbn in Hh; lia|discriminate].
Qed.

(** The usual way of writing a digit string with a comma before each group of
    three digits counted from the right. *)
Fixpoint commas_rev (s : pystr) : pystr :=
  match s with
  | a :: b :: c :: ((_ :: _) as t) => a :: b :: c :: 44 :: commas_rev t
  | _ => s
  end.
Definition with_commas (s : pystr) : pystr := rev (commas_rev (rev s)).

Lemma commas_rev_groups n : forall s, (length s <= n)%nat -> digits s -> s <> [] ->
  exists h gs, head_ok h /\ Forall group_ok gs /\ rev (commas_rev s) = h ++ groups_text gs /\ rev s = h ++ groups_plain gs /\
    Forall (fun g => fst g = []) gs.
Proof.
  induction n as [|n IH]; intros s Hl Hd Hne; [destruct s; [contradiction|cbn in Hl; lia]|].
  assert (Hshort : (length s <= 3)%nat -> commas_rev s = s -> exists h gs, head_ok h /\ Forall group_ok gs /\
    rev (commas_rev s) = h ++ groups_text gs /\ rev s = h ++ groups_plain gs /\ Forall (fun g => fst g = []) gs).
  { intros H3 E. rewrite E. exists (rev s), []. cbn. rewrite app_nil_r. repeat split; auto.
    - rewrite rev_length. destruct s; [contradiction|cbn; lia].
    - rewrite rev_length. exact H3.
    - apply Forall_rev, Hd. }
  destruct s as [|a [|b [|c [|d t]]]]; try (apply Hshort; [cbn; lia|reflexivity]). clear Hshort.
  change (commas_rev (a :: b :: c :: d :: t)) with (a :: b :: c :: 44 :: commas_rev (d :: t)).
  inversion Hd as [|? ? Ha Hd1]; subst. inversion Hd1 as [|? ? Hb Hd2]; subst. inversion Hd2 as [|? ? Hc Hd3]; subst.
  destruct (IH (d :: t)) as (h & gs & Hh & F & E1 & E2 & F'); [cbn in *; lia|exact Hd3|discriminate|].
  set (y := commas_rev (d :: t)) in *. clearbody y. set (z := d :: t) in *. clearbody z.
  exists h, (gs ++ [([], [c; b; a])]). cbn [rev]. rewrite E1, E2. unfold groups_text, groups_plain. rewrite !flat_map_app. cbn.
  repeat rewrite <- app_assoc. cbn. repeat split; try exact (proj1 Hh); try exact (proj2 Hh).
  - destruct Hh; lia.
  - destruct Hh; lia.
  - apply Forall_app. split; [exact F|]. constructor; [|constructor]. split; [left; reflexivity|]. split; [reflexivity|]. repeat constructor; auto.
  - apply Forall_app. split; [exact F'|]. repeat constructor.
Qed.
Lemma with_commas_groups s : digits s -> s <> [] ->
  exists h gs, head_ok h /\ Forall group_ok gs /\ with_commas s = h ++ groups_text gs /\ s = h ++ groups_plain gs.
Proof.
  intros Hd Hne. destruct (commas_rev_groups (length s) (rev s)) as (h & gs & H1 & H2 & H3 & H4 & _).
  - rewrite rev_length. lia.
  - apply Forall_rev, Hd.
  - intro E. apply Hne. rewrite <- (rev_involutive s), E. reflexivity.
  - exists h, gs. rewrite rev_involutive in H4. auto.
Qed.
Lemma digits_no_thousands s : digits s -> ~ has_thousands s.
Proof.
  intros F (a & d1 & sep & d2 & d3 & d4 & b & -> & _). rewrite Forall_forall in F.
  specialize (F 44). discriminate F. apply in_or_app. right. right. left. reflexivity.
Qed.
Lemma strip_with_commas a b s : non_digits a -> non_digits b -> no_comma_first b -> digits s -> s <> [] ->
  strip_commas (a ++ with_commas s ++ b) = a ++ s ++ b.
Proof.
  intros Ha Hb Hb' Hd Hne. destruct (with_commas_groups s Hd Hne) as (h & gs & Hh & F & E1 & E2).
  destruct gs as [|g gs].
  - cbn in E1, E2. rewrite app_nil_r in *. rewrite E1, <- E2. clear E1 E2 Hh h. apply strip_commas_id.
    intros (x & d1 & sep & d2 & d3 & d4 & y & E & Hs & Hdd).
    (* the comma of a group would have to lie in [a] or [b], next to a digit *)
    inversion Hdd as [|? ? Hd1 Hdd1]; subst. inversion Hdd1 as [|? ? Hd2 _]; subst.
    rewrite Forall_forall in Ha, Hb.
    destruct (app_eq_app _ _ _ _ E) as (r & [[E1' E2']|[E1' E2']]).
    + destruct r as [|z r].
      * cbn in E2'. destruct s as [|z s]; [contradiction|]. cbn in E2'. injection E2' as <- E2'.
        destruct s as [|z' s].
        -- cbn in E2'. destruct b as [|z' b]; [discriminate|]. injection E2' as <- E2'. cbn in Hb'. congruence.
        -- cbn in E2'. injection E2' as <- E2'. inversion Hd as [|? ? _ Hd']; subst. inversion Hd' as [|? ? HH _]; subst. discriminate HH.
      * cbn in E2'. injection E2' as <- E2'. specialize (Ha d1). rewrite E1' in Ha. rewrite Ha in Hd1; [discriminate|].
        apply in_or_app. right. left. reflexivity.
    + destruct (app_eq_app _ _ _ _ E2') as (r' & [[E3 E4]|[E3 E4]]).
      * destruct r' as [|z r'].
        -- cbn in E4. specialize (Hb d1). rewrite <- E4 in Hb. rewrite Hb in Hd1; [discriminate|]. left; reflexivity.
        -- cbn in E4. injection E4 as <- E4. destruct r' as [|z' r'].
           ++ cbn in E4. destruct b as [|z' b]; [discriminate|]. injection E4 as <- E4. cbn in Hb'. congruence.
           ++ cbn in E4. injection E4 as <- E4. rewrite Forall_forall in Hd. specialize (Hd 44). discriminate Hd.
              rewrite E3. apply in_or_app. right. right. left. reflexivity.
      * specialize (Hb d1). rewrite Hb in Hd1; [discriminate|]. rewrite E4. apply in_or_app. right. left. reflexivity.
  - rewrite E1, E2, <- app_assoc. rewrite strip_commas_grouped; auto; [rewrite <- app_assoc; reflexivity|discriminate].
Qed.

(** ** What the pieces are *)
(** [m] cut at its commas outside brackets: [raw]; a trailing comma adds no empty piece. *)
Definition pieces (m : pystr) (raw : list pystr) : Prop :=
  (forall x, In x raw -> ~ top_comma x) /\
  (forall x, In x (removelast raw) -> balance x = 0%Z) /\
  ((raw = [] /\ m = []) \/ (raw <> [] /\ last raw [] <> [] /\ m = join [44] raw) \/
   (raw <> [] /\ balance (last raw []) = 0%Z /\ m = join [44] raw ++ [44])).
Lemma top_comma_snoc x c : top_comma (x ++ [c]) -> top_comma x \/ (c = 44 /\ balance x = 0%Z).
Proof.
  intros (p & q & E & B). destruct q as [|d q] using rev_ind.
  - apply app_inj_tail in E. destruct E as [<- ->]. right; auto.
  - rewrite app_comm_cons, app_assoc in E. apply app_inj_tail in E. destruct E as [-> _]. left. exists p, q. auto.
Qed.
Lemma split_commas_pieces s : forall stack, ~ top_comma (rev stack) ->
  exists raw, split_commas s (balance (rev stack)) stack = map strip raw /\ pieces (rev stack ++ s) raw.
Proof.
  induction s as [|c s IH]; intros stack Ht; cbn [split_commas].
  - rewrite app_nil_r. destruct stack as [|d stack].
    + exists []. split; [reflexivity|]. split; [intros ? []|]. split; [intros ? []|]. left. auto.
    + exists [rev (d :: stack)]. split; [reflexivity|]. split; [intros x [<-|[]]; exact Ht|]. split; [intros ? []|].
      right; left. split; [discriminate|]. split; [|reflexivity]. cbn. destruct (rev stack); discriminate.
  - destruct ((c =? 44) && (balance (rev stack) =? 0)%Z) eqn:E.
    + apply andb_true_iff in E. destruct E as [Ec Eb]. apply N.eqb_eq in Ec. apply Z.eqb_eq in Eb. subst c. rewrite Eb.
      destruct (IH []) as (raw & E1 & Hp1 & Hp2 & Hp3).
      { cbn. intros (p & q & E & _). destruct p; discriminate. }
      exists (rev stack :: raw). cbn [rev map] in *. change (balance []) with 0%Z in E1. rewrite E1. split; [reflexivity|]. split; [|split].
      * intros x [<-|H]; [exact Ht|apply Hp1, H].
      * intros x H. destruct raw as [|r raw]; [destruct H|]. destruct H as [<-|H]; [exact Eb|apply Hp2, H].
      * cbn [app] in Hp3. destruct Hp3 as [[-> ->]|[(Hr & Hl & ->)|(Hr & Hl & ->)]].
        -- right; right. split; [discriminate|]. split; [exact Eb|reflexivity].
        -- destruct raw as [|r raw]; [contradiction|]. right; left. split; [discriminate|]. split; [exact Hl|reflexivity].
        -- destruct raw as [|r raw]; [contradiction|]. right; right. split; [discriminate|]. split; [exact Hl|].
           change (join [44] (rev stack :: r :: raw)) with (rev stack ++ [44] ++ join [44] (r :: raw)).
           rewrite <- !app_assoc. reflexivity.
    + destruct (IH (c :: stack)) as (raw & E1 & Hp).
      { cbn [rev]. intro H. apply top_comma_snoc in H. destruct H as [H|[-> H]]; [exact (Ht H)|]. rewrite H in E. discriminate. }
      exists raw. cbn [rev] in *. rewrite <- app_assoc in Hp. split; [|exact Hp].
      rewrite <- E1. f_equal. rewrite step_balance, balance_app. reflexivity.
Qed.
Lemma split_commas_pieces0 s : exists raw, split_commas s 0 [] = map strip raw /\ pieces s raw.
Proof. apply (split_commas_pieces s []). cbn. intros (p & q & E & _). destruct p; discriminate. Qed.

(** [r] is the outcome of cutting [m], to be read as a sequence of kind [k]. *)
Definition cut (k : kind) (m : pystr) (r : splitted) : Prop :=
  exists raw, pieces m raw /\
    match r with
    | SSeq k' l => k' = k /\ (2 <= length raw)%nat /\ l = map strip raw
    | SStr x => (length raw < 2)%nat /\ x = m
    end.
Lemma list_or_str_cut k m : cut k m (list_or_str k m (split_commas m 0 [])).
Proof.
  destruct (split_commas_pieces0 m) as (raw & E & Hp). exists raw. split; [exact Hp|]. rewrite E.
  destruct raw as [|a [|b raw]]; cbn; repeat split; auto; lia.
Qed.
Lemma split_tuple_cut s exp r : split_tuple s exp = Ret r ->
  (exists k m, m <> [] /\ enclosed k m (strip_commas s) /\ cut (match exp with Some k' => k' | None => k end) m r) \/
  ((forall k m, m <> [] -> ~ enclosed k m (strip_commas s)) /\ cut (match exp with Some k' => k' | None => KSet end) (strip_commas s) r).
Proof.
  intro H. assert (Hb : balance s = 0%Z).
  { destruct (Z.eq_dec (balance s) 0) as [Hb|Hb]; [exact Hb|].
    assert (E : split_tuple s exp = Raise AssertionError) by (apply split_tuple_raises; auto). congruence. }
  destruct (split_tuple_shape s exp Hb) as [(k & m & Hm & He & E)|[Hno E]]; rewrite E in H; injection H as <-.
  - left. exists k, m. split; [exact Hm|]. split; [exact He|]. apply list_or_str_cut.
  - right. split; [exact Hno|]. apply list_or_str_cut.
Qed.

(** A pair whose second component has three digits is taken for one number. *)
Lemma merged_pair k h g : head_ok h -> group_ok ([], g) ->
  split_tuple (wrap k (h ++ 44 :: g)) None = Ret (SStr (h ++ g)).
Proof.
  intros Hh Hg.
  assert (Es : strip_commas (wrap k (h ++ 44 :: g)) = wrap k (h ++ g)).
  { unfold wrap. pose proof (strip_commas_grouped [fst (pair_of k)] h [([], g)] [snd (pair_of k)]) as E.
    cbn [groups_text groups_plain flat_map app fst snd] in E. rewrite !app_nil_r in E.
    replace ((h ++ 44 :: g) ++ [snd (pair_of k)]) with (h ++ 44 :: g ++ [snd (pair_of k)]) by (rewrite <- app_assoc; reflexivity).
    rewrite <- app_assoc. apply E; auto; try (destruct k; repeat constructor); try discriminate. }
  assert (Hd : digits (h ++ g)) by (apply Forall_app; split; [apply Hh|apply Hg]).
  assert (Hbal : forall x, digits x -> balance x = 0%Z).
  { clear. intros x F. induction F as [|c x Hc F IH]; [reflexivity|]. rewrite balance_cons, IH. cbn [balance].
    destruct (existsb (N.eqb c) (u "([{")) eqn:E1.
    { exfalso. apply existsb_exists in E1. destruct E1 as (d & Hi & E1). apply N.eqb_eq in E1. subst d.
      cbn in Hi. repeat (destruct Hi as [<-|Hi]; [discriminate|]). contradiction. }
    destruct (existsb (N.eqb c) (u ")]}")) eqn:E2; [|reflexivity].
    exfalso. apply existsb_exists in E2. destruct E2 as (d & Hi & E2). apply N.eqb_eq in E2. subst d.
    cbn in Hi. repeat (destruct Hi as [<-|Hi]; [discriminate|]). contradiction. }
  assert (Hwn : well_nested (h ++ g)).
  { split; [apply Hbal, Hd|]. intros p q E. rewrite E in Hd. apply Forall_app in Hd. rewrite (Hbal p (proj1 Hd)). reflexivity. }
  assert (Hne : h ++ g <> []) by (destruct h; [destruct Hh as [Hh _]; cbn in Hh; lia|discriminate]).
  assert (Henc : enclosed k (h ++ g) (wrap k (h ++ g))) by (split; [reflexivity|exact Hwn]).
  assert (Hb : balance (wrap k (h ++ 44 :: g)) = 0%Z).
  { rewrite <- strip_commas_balance, Es. unfold wrap. rewrite balance_cons, balance_app, (Hbal _ Hd). destruct (balance_pair k) as [-> ->]. reflexivity. }
  destruct (split_tuple_shape (wrap k (h ++ 44 :: g)) None Hb) as [(k' & m & Hm & He & E)|[Hno E]].
  - rewrite Es in He. destruct He as [He _]. unfold wrap in He. injection He as _ He.
    apply app_inj_tail in He. destruct He as [<- _]. rewrite E. f_equal.
    destruct (split_commas_pieces0 (h ++ g)) as (raw & -> & Hp).
    destruct raw as [|a [|b raw]]; [reflexivity..|]. exfalso.
    apply (digits_no_comma _ Hd). destruct Hp as (_ & _ & [[Hp _]|[(_ & _ & ->)|(_ & _ & ->)]]); [discriminate| |];
      change (join [44] (a :: b :: raw)) with (a ++ [44] ++ join [44] (b :: raw)); rewrite ?in_app_iff; cbn; auto.
  - exfalso. apply (Hno k (h ++ g) Hne). rewrite Es. exact Henc.
Qed.
Lemma strip_commas_N n : strip_commas (with_commas (dec_N n)) = dec_N n.
Proof.
  destruct (dec_N_spec n) as (Hd & _ & Hne & _). pose proof (strip_with_commas [] [] (dec_N n)) as H. cbn [app] in H.
  rewrite !app_nil_r in H. apply H; auto; try constructor. eapply Forall_impl; [|exact Hd]. intros c. apply ascii_is_digit.
Qed.
Lemma nesting_unchecked : exists s r, ~ well_nested s /\ split_tuple s None = Ret r.
Proof.
  exists (u ")("), (SStr (u ")(")). split; [|vm_compute; reflexivity].
  intros [_ H]. specialize (H (u ")") (u "(") eq_refl). vm_compute in H. apply H. reflexivity.
Qed.
