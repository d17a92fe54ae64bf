(** A weight of texts that normalisation does not increase and splitting decreases. *)
From Coq Require Import String List NArith ZArith Bool Lia Arith.
From Verif Require Import UnicodeTables PyStr PyStrTheory NumTheory Regex RegexTheory Float64 FloatTheory Constants Normalize NormTheory NormNum NormPct NormMixed NormSci NormTime NormShape NormClean Monad Split SplitTheory.
Import ListNotations.
Local Open Scope N_scope.
Local Arguments N.eqb : simpl never. Local Arguments N.add : simpl never. Local Arguments N.leb : simpl never.

(** Commas and brackets count 1, letters at least 2; signs, digits, spaces and backslashes nothing. *)
Definition weight (c : N) : N :=
  if 128 <=? c then (if c =? 304 then 400 else 300)
  else if ((65 <=? c) && (c <=? 90)) || ((97 <=? c) && (c <=? 122)) then
    (if mem_cp (u "yY") c then 6 else if mem_cp (u "sS") c then 4 else 2)
  else if mem_cp (u ",()[]{}") c then 1
  else if c =? 58 then 3
  else if mem_cp [37; 7; 8; 9; 12; 13] c then 10
  else 0.
Fixpoint total (s : pystr) : N := match s with [] => 0 | c :: s' => weight c + total s' end.

Lemma total_app a b : total (a ++ b) = total a + total b.
Proof. induction a as [|c a IH]; cbn [app total]; [lia|]. rewrite IH. lia. Qed.
Lemma total_cons c s : total (c :: s) = weight c + total s.
Proof. reflexivity. Qed.
Lemma total_rev s : total (rev s) = total s.
Proof. induction s as [|c s IH]; [reflexivity|]. cbn [rev]. rewrite total_app, IH. cbn [total]. lia. Qed.
Lemma total_infix x s : infix x s -> total x <= total s.
Proof. intros (a & b & ->). rewrite !total_app. lia. Qed.
Lemma total_digits s : Forall ascii_digit s -> total s = 0.
Proof.
  induction 1 as [|c s Hc _ IH]; [reflexivity|]. cbn [total]. rewrite IH. unfold ascii_digit in Hc.
  assert (In c (u "0123456789")) as Hi.
  { assert (c = 48 \/ c = 49 \/ c = 50 \/ c = 51 \/ c = 52 \/ c = 53 \/ c = 54 \/ c = 55 \/ c = 56 \/ c = 57) as G by lia. vm_compute. clear - G. intuition auto. }
  assert (Z : forall c, In c (u "0123456789") -> weight c = 0) by (apply Forall_forall; vm_compute; repeat constructor).
  rewrite (Z _ Hi). reflexivity.
Qed.
Lemma total_strip_by p s : total (strip_by p s) <= total s.
Proof. destruct (strip_by_spec p s) as (a & b & E & _). rewrite E at 2. rewrite !total_app. lia. Qed.
Lemma total_mid s : total (mid s) <= total s.
Proof.
  unfold mid. assert (G : forall l, total (removelast l) <= total l).
  { induction l as [|x l IH]; [cbn; lia|]. destruct l as [|y l]; [cbn; lia|]. change (removelast (x :: y :: l)) with (x :: removelast (y :: l)).
    rewrite !(total_cons x). lia. }
  destruct s as [|x s]; [cbn; lia|]. cbn [tl]. specialize (G s). cbn [total]. lia.
Qed.

(** ** Replacing *)
Lemma total_replace p q s : p <> [] -> total q <= total p -> total (replace p q s) <= total s.
Proof.
  intros Hp Hq. unfold replace.
  assert (G : forall n s, (length s <= n)%nat -> total (replace_go p q O s) <= total s).
  { induction n as [|n IH]; intros [|x t] Hl; try (cbn; lia); [cbn in Hl; lia|].
    cbn [replace_go]. destruct (starts_with p (x :: t)) eqn:E.
    - apply starts_with_spec in E. destruct E as (r & E). destruct p as [|y p]; [contradiction|]. cbn [app] in E. injection E as -> ->.
      cbn [length]. rewrite Nat.sub_succ, Nat.sub_0_r.
      assert (K : forall k l, replace_go (y :: p) q (length k) (k ++ l) = replace_go (y :: p) q O l).
      { induction k as [|z k IHk]; intro l; [destruct l; reflexivity|]. cbn [length app replace_go]. apply IHk. }
      rewrite K, total_app, app_comm_cons, total_app. specialize (IH r). cbn [length] in Hl. rewrite app_length in Hl. specialize (IH ltac:(lia)). lia.
    - rewrite !total_cons. specialize (IH t ltac:(cbn in Hl; lia)). lia. }
  apply (G (length s)). lia.
Qed.
(** Removing one character *)
Lemma total_remove c s : In c s -> 0 < weight c -> total (replace [c] [] s) < total s.
Proof.
  intros Hi Hw. pose proof (fun s => total_replace [c] [] s ltac:(discriminate) ltac:(cbn; lia)) as L.
  induction s as [|x s IH]; [contradiction|]. unfold replace. cbn [replace_go starts_with]. destruct (N.eqb_spec c x) as [->|Hn]; cbn [andb length Nat.sub app].
  - specialize (L s). unfold replace in L. cbn [total]. lia.
  - destruct Hi as [->|Hi]; [congruence|]. specialize (IH Hi). unfold replace in IH. cbn [total]. lia.
Qed.

(** ** Substitutions *)
Lemma total_sub r f s : (forall pre w s st, w <> [] -> match_at r pre (w ++ s) = Some st -> after st = s -> den r w -> total (f w (caps st)) <= total w) ->
  total (re_sub_fun r f s) <= total s.
Proof.
  intro H. unfold re_sub_fun. apply (sub_go_ind r f (fun _ s o => total o <= total s)).
  - intros; cbn; lia.
  - intros pre c s' o Ho. cbn [total]. lia.
  - intros pre w s' o st Hw Hm Ha Hd _ Ho. rewrite !total_app. specialize (H pre w s' st Hw Hm Ha Hd). lia.
Qed.
(** A lower bound for the weight of what a pattern matches *)
Fixpoint least (r : regex) : N :=
  match r with
  | RChr (CLit c) => weight c
  | RSeq a b => least a + least b
  | RAlt a b => N.min (least a) (least b)
  | RGrp _ a => least a
  | _ => 0
  end.
Lemma least_sound r : forall w, den r w -> least r <= total w.
Proof.
  induction r as [|k|a IHa b IHb|a IHa b IHb|g a IHa|n a IHa| | | |]; intros w H; cbn [den least] in *; try lia.
  - destruct H as (c & -> & Hc). destruct k; try (cbn [total]; lia). cbn in Hc. apply N.eqb_eq in Hc. subst. cbn [total]. lia.
  - destruct H as (w1 & w2 & -> & H1 & H2). rewrite total_app. specialize (IHa _ H1). specialize (IHb _ H2). lia.
  - destruct H as [H|H]; [specialize (IHa _ H)|specialize (IHb _ H)]; lia.
  - apply IHa, H.
Qed.
Lemma total_lit_sub r q s : total q <= least r -> total (re_sub r [PLit q] s) <= total s.
Proof.
  intro H. apply total_sub. intros pre w s' st _ _ _ Hd. cbn [expand flat_map]. rewrite app_nil_r. pose proof (least_sound r w Hd). lia.
Qed.
Lemma total_del r s : total (re_del r s) <= total s.
Proof. apply total_sub. intros. cbn. lia. Qed.
Lemma total_fold {A} (f : pystr -> A -> pystr) l : (forall s x, total (f s x) <= total s) -> forall s, total (fold_left f l s) <= total s.
Proof. intro H. induction l as [|x l IH]; intro s; cbn [fold_left]; [lia|]. specialize (IH (f s x)). specialize (H s x). lia. Qed.

(** ** lower *)
Definition low_ok (r : N * N * N * Z) : bool :=
  match r with (a, b, _, d) => ((128 <=? a) || (b <? 128)) && ((Z.of_N b + d <? 304) || (304 <? Z.of_N a + d))%Z end.
Lemma low_table : forallb low_ok lower_runs = true.
Proof. vm_compute. reflexivity. Qed.
Lemma low_ascii : forallb (fun n => let c := N.of_nat n in total (lower_cp c) <=? weight c) (seq 0 128) = true.
Proof. vm_compute. reflexivity. Qed.
Lemma weight_le c : c <> 304 -> weight c <= 300.
Proof.
  intro H. unfold weight. destruct (128 <=? c); [rewrite (proj2 (N.eqb_neq _ _) H); lia|].
  repeat match goal with |- (if ?b then _ else _) <= _ => destruct b end; lia.
Qed.
Lemma total_lower_cp c : total (lower_cp c) <= weight c.
Proof.
  destruct (N.le_gt_cases 128 c) as [Hc|Hc].
  - unfold lower_cp. destruct (N.eqb_spec c 304) as [->|Hn]; [vm_compute; discriminate|].
    assert (Wc : weight c = 300).
    { unfold weight. rewrite (proj2 (N.leb_le _ _) Hc), (proj2 (N.eqb_neq _ _) Hn). reflexivity. }
    destruct (find _ lower_runs) as [[[[a b] st] d]|] eqn:E; cbn [total]; [|lia].
    apply find_some in E. destruct E as [Hin E]. pose proof low_table as T. rewrite forallb_forall in T. specialize (T _ Hin). cbn in T.
    rewrite !andb_true_iff in E. destruct E as [[E1 E2] _]. apply N.leb_le in E1. apply N.leb_le in E2.
    apply andb_true_iff in T. destruct T as [_ T]. apply orb_true_iff in T. destruct T as [T|T]; apply Z.ltb_lt in T;
    pose proof (weight_le (Z.to_N (Z.of_N c + d)) ltac:(lia)); lia.
  - pose proof low_ascii as T. rewrite forallb_forall in T. specialize (T (N.to_nat c) ltac:(apply List.in_seq; lia)). cbn beta zeta in T.
    rewrite N2Nat.id in T. apply N.leb_le, T.
Qed.
Lemma total_lower s : total (lower s) <= total s.
Proof.
  induction s as [|c s IH]; [cbn; lia|]. unfold lower in *. cbn [flat_map]. rewrite total_app. pose proof (total_lower_cp c). cbn [total]. lia.
Qed.

(** ** Numbers *)
Lemma total_dec_N n : total (dec_N n) = 0.
Proof. apply total_digits, dec_N_digits. Qed.
Lemma total_dec_Z z : total (dec_Z z) = 0.
Proof. destruct z; cbn [dec_Z]; [reflexivity|apply total_dec_N|]. cbn [total]. rewrite total_dec_N. reflexivity. Qed.
Lemma total_sign (b : bool) : total (if b then [45] else []) = 0.
Proof. destruct b; reflexivity. Qed.
Lemma total_pad2 n : total (pad2 n) = 0.
Proof. unfold pad2. destruct (n <? 10); cbn [total]; rewrite total_dec_N; reflexivity. Qed.
Lemma total_exp x : total (exp_suffix x) = 2.
Proof. unfold exp_suffix. cbn [total]. rewrite total_pad2. destruct (x <? 0)%Z; reflexivity. Qed.
Lemma total_zeros n : total (zeros n) = 0.
Proof. induction n as [|n IH]; [reflexivity|]. unfold zeros in *. cbn [repeat total]. rewrite IH. reflexivity. Qed.
Lemma total_firstn_skipn k s : total (firstn k s) + total (skipn k s) = total s.
Proof. rewrite <- total_app, firstn_skipn. reflexivity. Qed.
Lemma total_strip_zeros s : total (strip_zeros s) <= total s.
Proof.
  assert (G : forall s, total (strip_zeros_rev s) <= total s).
  { induction s0 as [|c r IH]; [cbn; lia|]. rewrite total_cons. destruct (N.eq_dec c 48) as [->|Hn].
    - cbn [strip_zeros_rev]. lia.
    - replace (strip_zeros_rev (c :: r)) with (c :: r); [rewrite total_cons; lia|]. cbn [strip_zeros_rev].
      repeat match goal with |- _ = match ?x with _ => _ end => destruct x; try reflexivity end. contradiction Hn; reflexivity. }
  unfold strip_zeros. rewrite total_rev. specialize (G (rev s)). rewrite total_rev in G. exact G.
Qed.
Lemma total_float_str f : total (float_str f) <= 6.
Proof.
  destruct f as [|n|n m e]; cbn [float_str]; [vm_compute; discriminate|rewrite total_app, total_sign; vm_compute; discriminate|].
  rewrite total_app, total_sign. unfold repr_fin. destruct (m =? 0); [vm_compute; discriminate|].
  destruct (ratio_of m e) as [a b]. destruct (shortest _ _ _ _ _ _ _) as [D e10].
  assert (Z : total (strip_zeros (dec_N D)) = 0).
  { pose proof (total_strip_zeros (dec_N D)). rewrite total_dec_N in H. lia. }
  set (ds := strip_zeros (dec_N D)) in *. set (p := (Z.of_nat _ + e10)%Z).
  destruct ((p <=? -4) || (16 <? p))%Z%bool.
  - destruct ds as [|d r]; [cbn; lia|]. rewrite total_cons, total_app, total_exp. cbn [total] in Z.
    destruct r as [|y r]; [cbn [total]; lia|]. rewrite (total_cons 46). change (weight 46) with 0. lia.
  - destruct (p <=? 0)%Z; [rewrite !total_app, total_zeros; change (total (u "0.")) with 0; lia|].
    destruct (_ <=? p)%Z; [rewrite !total_app, total_zeros; change (total (u ".0")) with 0; lia|].
    rewrite total_app, total_cons. change (weight 46) with 0. pose proof (total_firstn_skipn (Z.to_nat p) ds). lia.
Qed.

(** ** The normalisation steps *)
Lemma total_scientific f : float_is_int f = true -> total (replace (u "e") (u "*10^{") (format_e f) ++ u "}") <= 2.
Proof.
  assert (K : forall a, ~ In 101 a -> forall b, replace [101] (u "*10^{") (a ++ b) = a ++ replace [101] (u "*10^{") b).
  { induction a as [|x a IH]; intros Ha b; [reflexivity|]. cbn [app]. unfold replace. cbn [replace_go starts_with].
    destruct (N.eqb_spec 101 x) as [Ex|Hn]; [contradiction Ha; left; symmetry; exact Ex|]. cbn [andb]. f_equal. apply IH. intro H. apply Ha. right. exact H. }
  assert (D : forall n, ~ In 101 (dec_N n)).
  { intros n H. pose proof (dec_N_digits n) as F. rewrite Forall_forall in F. apply F in H. unfold ascii_digit in H. lia. }
  assert (P : forall n, ~ In 101 (pad2 n)) by (intros n; unfold pad2; destruct (n <? 10); [intros [H|H]; [discriminate|apply D in H; exact H]|apply D]).
  assert (Sg : forall b : bool, ~ In 101 (if b then [45] else [])) by (intros []; [intros [H|[]]; discriminate|auto]).
  assert (E : forall x, total (replace [101] (u "*10^{") (exp_suffix x)) = 1).
  { intro x. unfold exp_suffix. rewrite NormSci.replace_one, total_app. change (total (u "*10^{")) with 1.
    rewrite <- (app_nil_r (_ :: pad2 _)), K.
    - rewrite app_nil_r, total_cons, total_pad2. destruct (x <? 0)%Z; reflexivity.
    - intros [H|H]; [destruct (x <? 0)%Z; discriminate|apply P in H; exact H]. }
  change (u "e") with [101]. intro Hf. destruct f as [|n|n m e]; [discriminate|discriminate|]. cbn [format_e].
  rewrite K, !total_app, total_sign by apply Sg. change (total (u "}")) with 1. unfold format_e_fin.
  destruct (m =? 0); [vm_compute; discriminate|]. destruct (ratio_of m e) as [a b]. destruct (scale10 a b _) as [a' b'].
  destruct (if _ =? 10 ^ 7 then _ else _) as [D' p]. pose proof (D D') as Hd. pose proof (total_dec_N D') as Ht.
  destruct (dec_N D') as [|d r] eqn:Ed; [cbn; lia|].
  change (d :: 46 :: r ++ exp_suffix (p - 1)) with ((d :: 46 :: r) ++ exp_suffix (p - 1)). rewrite K, total_app, E.
  - rewrite !total_cons in *. change (weight 46) with 0. lia.
  - intros [H|[H|H]]; [apply Hd; left; exact H|discriminate|apply Hd; right; exact H].
Qed.
Lemma total_norm_int s : total (norm_int s) <= total s.
Proof.
  unfold norm_int. destruct (py_float s) as [f|] eqn:Ef; [|lia]. destruct (float_is_int f) eqn:Ei; [|lia].
  destruct (contains (u "e") s) eqn:Ec.
  - unfold float_to_latex_scientific. rewrite Ef. destruct (float_is_zero f); [lia|]. pose proof (total_scientific f Ei).
    apply contains_spec in Ec. destruct Ec as (a & b & ->). rewrite !(total_app a), (total_app (u "e")). change (total (u "e")) with 2. lia.
  - destruct (int_round f); [rewrite total_dec_Z|]; lia.
Qed.
Local Ltac rep := apply total_replace; [discriminate|vm_compute; discriminate].
Local Ltac chain := repeat match goal with
  | |- ?x <= ?x => apply N.le_refl
  | |- total (replace ?p ?q ?s) <= _ => apply N.le_trans with (total s); [rep|]
  | |- total (re_sub ?r [PLit ?q] ?s) <= _ => apply N.le_trans with (total s); [apply total_lit_sub; vm_compute; discriminate|]
  | |- total (re_del ?r ?s) <= _ => apply N.le_trans with (total s); [apply total_del|]
  | |- total (strip ?s) <= _ => apply N.le_trans with (total s); [apply total_strip_by|]
  | |- total (strip_sp ?s) <= _ => apply N.le_trans with (total s); [apply total_strip_by|]
  | |- total (lower ?s) <= _ => apply N.le_trans with (total s); [apply total_lower|]
  end.
Lemma total_parse_latex s : total (parse_latex s) <= total s.
Proof. unfold parse_latex. chain. Qed.
Lemma total_matrix_normalize s : total (str_matrix_normalize s) <= total s.
Proof.
  unfold str_matrix_normalize. set (a := if contains (u "{cases}") s then _ else _).
  assert (A : total a <= total s) by (subst a; destruct (contains _ s); [rep|lia]).
  set (b := if contains (u "{array}") a then _ else _).
  assert (B : total b <= total a) by (subst b; destruct (contains _ a); [rep|lia]).
  destruct (negb _); [|lia]. apply N.le_trans with (total b); [rep|lia].
Qed.
(** Groups a pattern does not mention keep their value *)
Fixpoint mentions (n : nat) (r : regex) : bool :=
  match r with
  | RSeq a b | RAlt a b => mentions n a || mentions n b
  | RStar _ a => mentions n a
  | RGrp k a => Nat.eqb k n || mentions n a
  | _ => false
  end.
Lemma group_kept n r : mentions n r = false -> forall st st', In st' (matches r st) -> group n (caps st') = group n (caps st).
Proof.
  induction r as [|k|a IHa b IHb|a IHa b IHb|g a IHa|k a IHa| | |p k|p k]; cbn [mentions]; intros Hm st st' H.
  - apply in_eps in H. subst. reflexivity.
  - cbn [matches] in H. destruct (after st); [contradiction|]. destruct (cls_in k n0); [|contradiction]. destruct H as [<-|[]]. reflexivity.
  - apply orb_false_iff in Hm. destruct Hm as [Ha Hb]. apply in_seq in H. destruct H as (s1 & H1 & H2).
    rewrite (IHb Hb _ _ H2), (IHa Ha _ _ H1). reflexivity.
  - apply orb_false_iff in Hm. destruct Hm as [Ha Hb]. apply in_alt in H. destruct H; auto.
  - cbn [matches] in H. revert H. generalize (length (after st)). intro f. revert st st'. induction f as [|f IH]; intros st st' H.
    + destruct H as [<-|[]]. reflexivity.
    + cbn [star_matches] in H.
      assert (In st' (flat_map (star_matches (matches a) g f) (filter (fun st' => Nat.ltb (length (after st')) (length (after st))) (matches a st))) \/ st' = st) as [G| ->].
      { destruct g; [apply in_app_or in H; destruct H as [H|[H|[]]]|destruct H as [H|H]]; auto. }
      * apply in_flat_map in G. destruct G as (s1 & H1 & H2). apply filter_In in H1. destruct H1 as [H1 _].
        rewrite (IH _ _ H2). apply IHa; assumption.
      * reflexivity.
  - apply orb_false_iff in Hm. destruct Hm as [Hk Ha]. cbn [matches] in H. apply in_map_iff in H. destruct H as (s1 & <- & H).
    cbn [caps group]. rewrite Hk. apply IHa; assumption.
  - cbn [matches] in H. destruct (before st); [|contradiction]. destruct H as [<-|[]]. reflexivity.
  - cbn [matches] in H. destruct (at_end (after st)); [|contradiction]. destruct H as [<-|[]]. reflexivity.
  - cbn [matches] in H. destruct (Bool.eqb _ p); [|contradiction]. destruct H as [<-|[]]. reflexivity.
  - cbn [matches] in H. destruct (Bool.eqb _ p); [|contradiction]. destruct H as [<-|[]]. reflexivity.
Qed.
Definition weight_of (o : option pystr) : N := match o with Some s => total s | None => 0 end.
Lemma consumed r st st' : In st' (matches r st) -> exists w, den r w /\ after st = w ++ after st'.
Proof. intro H. apply matches_sound in H. destruct H as (w & [E _] & D & _). eauto. Qed.
Lemma consumed_grp n r st st' : mentions n r = false -> In st' (matches (RGrp n r) st) ->
  exists w, den r w /\ after st = w ++ after st' /\ group n (caps st') = Some w /\ forall k, mentions k r = false -> k <> n -> group k (caps st') = group k (caps st).
Proof.
  intros Hm H. destruct st as [pre s cs]. apply in_grp in H. destruct H as (s1 & w & H & E & ->). pose proof (consumed _ _ _ H) as (w' & D & E').
  cbn [after] in E'. assert (w' = w) as -> by (apply app_inv_tail with (after s1); congruence).
  exists w. cbn [after caps group]. rewrite Nat.eqb_refl. repeat split; auto. intros k Hk Hn.
  rewrite (proj2 (Nat.eqb_neq n k)) by auto. apply (group_kept k r Hk _ _ H).
Qed.
Lemma two_groups a b c pre w s st : mentions 1 a = false -> mentions 1 b = false -> mentions 2 b = false -> mentions 1 c = false -> mentions 2 c = false ->
  match_at (rseq [RGrp 1 a; b; RGrp 2 c]) pre (w ++ s) = Some st -> after st = s ->
  weight_of (group 1 (caps st)) + weight_of (group 2 (caps st)) <= total w.
Proof.
  intros A1 B1 B2 C1 C2 Hm Ha. apply hd_error_in in Hm. apply in_rseq_cons in Hm. destruct Hm as (s1 & H1 & Hm).
  apply in_rseq_cons in Hm. destruct Hm as (s2 & H2 & Hm). apply in_rseq_cons in Hm. destruct Hm as (s3 & H3 & Hm). apply in_rseq_nil in Hm. subst st.
  destruct (consumed_grp 1 a _ _ A1 H1) as (w1 & _ & E1 & G1 & _). destruct (consumed b _ _ H2) as (w2 & _ & E2).
  destruct (consumed_grp 2 c _ _ C2 H3) as (w3 & _ & E3 & G3 & K3). cbn [after] in E1.
  rewrite G3, (K3 1%nat C1 ltac:(discriminate)), (group_kept 1 b B1 _ _ H2), G1. cbn [weight_of].
  rewrite E2, E3, Ha, !app_assoc in E1. apply app_inv_tail in E1. subst w. rewrite !total_app. lia.
Qed.
Lemma total_mixed s : total (inject_mixed s) <= total s.
Proof.
  assert (X : forall cs w, weight_of (group 1 cs) + weight_of (group 2 cs) <= total w -> total (expand [PGrp 1; PLit (u "+"); PGrp 2] cs) <= total w).
  { intros cs w H. cbn [expand flat_map]. rewrite !total_app. cbn [total]. change (total (u "+")) with 0.
    destruct (group 1 cs), (group 2 cs); cbn [weight_of total] in *; lia. }
  unfold inject_mixed. apply N.le_trans with (total (re_sub mixed_re1 [PGrp 1; PLit (u "+"); PGrp 2] s));
  (apply total_sub; intros pre w t st _ Hm Ha _; apply X; eapply two_groups; [| | | | |exact Hm|exact Ha]; reflexivity).
Qed.
Local Definition kept n r st st' H E := group_kept n r E st st' H.
Local Definition took n r st st' H E := consumed_grp n r st st' E H.
Lemma total_circ_num s : total (re_sub circ_num_re [PGrp 1; PGrp 2; PLit (u "/180*\pi")] s) <= total s.
Proof.
  apply total_sub. intros pre w t st _ Hm Ha _. apply hd_error_in in Hm. unfold circ_num_re in Hm.
  apply in_rseq_cons in Hm. destruct Hm as (s1 & H1 & Hm). apply in_rseq_cons in Hm. destruct Hm as (s2 & H2 & Hm).
  apply in_rseq_cons in Hm. destruct Hm as (s3 & H3 & Hm). apply in_rseq_cons in Hm. destruct Hm as (s4 & H4 & Hm). apply in_rseq_nil in Hm. subst st.
  destruct (took 1 _ _ _ H1 eq_refl) as (w1 & _ & E1 & G1 & K1). destruct (consumed _ _ _ H3) as (w3 & _ & E3).
  destruct (consumed _ _ _ H4) as (w4 & D4 & E4). apply least_sound in D4. change (least circ_tail) with 8 in D4.
  assert (exists w2, after s1 = w2 ++ after s2 /\ group 1 (caps s2) = Some w1 /\ weight_of (group 2 (caps s2)) <= total w2) as (w2 & E2 & G2 & L2).
  { apply in_opt in H2. destruct H2 as [H2| ->].
    - destruct (took 2 _ _ _ H2 eq_refl) as (w2 & _ & E2 & G2 & K2). exists w2. rewrite G2, (K2 1%nat eq_refl ltac:(discriminate)). cbn. repeat split; auto. lia.
    - exists []. split; [reflexivity|]. split; [exact G1|]. rewrite (K1 2%nat eq_refl ltac:(discriminate)). cbn. lia. }
  cbn [expand flat_map]. rewrite !total_app. change (total (u "/180*\pi")) with 4. change (total []) with 0.
  rewrite (kept 1 circ_tail _ _ H4 eq_refl), (kept 2 circ_tail _ _ H4 eq_refl), (kept 1 _ _ _ H3 eq_refl), (kept 2 _ _ _ H3 eq_refl), G2.
  cbn [after] in E1. rewrite E2, E3, E4, Ha, !app_assoc in E1. apply app_inv_tail in E1. subst w. rewrite !total_app.
  destruct (group 2 (caps s2)); cbn [weight_of total] in *; lia.
Qed.
Lemma total_words s : total (rewrite_words s) <= total s.
Proof. unfold rewrite_words. chain. Qed.
Lemma total_tex_space s : total (del_tex_space s) <= total s.
Proof. unfold del_tex_space. chain. Qed.
Lemma total_units s : total (del_units s) <= total s.
Proof.
  unfold del_units, del_short_units, del_long_units, del_text_units.
  eapply N.le_trans; [apply total_fold; intros; apply total_del|]. eapply N.le_trans; [apply total_fold; intros; apply total_del|].
  eapply N.le_trans; [apply total_del|]. apply total_fold. intros. eapply N.le_trans; apply total_del.
Qed.

Definition light (k : N) (n : norm) : Prop := match n with NStr s => total s <= k | NSet l => Forall (fun s => total s <= k) l end.
Lemma total_grp r s st n : re_search r s = Some st -> total (grp n st) <= total s.
Proof.
  intro H. apply re_search_sound in H. destruct H as (a & w & E & _ & _ & K). unfold grp. destruct (group n (caps st)) as [x|] eqn:G; [|cbn; lia].
  apply group_in, K, total_infix in G. rewrite E, !total_app. lia.
Qed.
Lemma total_time_list l : Forall (fun s => total s = 0) l -> total (time_list l) = N.of_nat (pred (length l)) + 2.
Proof.
  intro F. unfold time_list. rewrite !total_app. change (total [91]) with 1. change (total [93]) with 1.
  set (go := fix go l := match l with [] => [] | [x] => x | x :: l' => x ++ [44; 32] ++ go l' end).
  assert (G : total (go l) = N.of_nat (pred (length l))); [|lia].
  induction F as [|x l Hx F IH]; [reflexivity|]. destruct l as [|y l]; [exact Hx|].
  change (go (x :: y :: l)) with (x ++ [44; 32] ++ go (y :: l)). rewrite !total_app, Hx, IH. change (total [44; 32]) with 1. cbn [length pred]. lia.
Qed.
Lemma light_time s : light (total s) (str_to_time_list s).
Proof.
  assert (T : forall l, (length l <= 3)%nat -> Forall (fun s => total s = 0) l -> total (time_list l) <= N.of_nat (pred (length l)) + 2)
    by (intros l _ F; rewrite total_time_list by exact F; lia).
  unfold str_to_time_list. destruct (re_search time_re1 s) as [st|] eqn:E1.
  - destruct (is_pm _); cbn [light]; [repeat constructor; rewrite total_dec_N; lia|]. apply (total_grp _ _ _ _ E1).
  - destruct (re_search time_re2 s) as [st|] eqn:E2; [|cbn [light]; lia].
    assert (C : 3 <= total s).
    { apply re_search_sound in E2. destruct E2 as (a & w & E & _ & D & _). apply least_sound in D. change (least time_re2) with 3 in D.
      rewrite E, !total_app. lia. }
    assert (C3 : forall x, group 3 (caps st) = Some x -> 6 <= total s).
    { intros x G. rewrite anchored_search in E2 by reflexivity. apply hd_error_in in E2. unfold time_re2 in E2.
      apply in_rseq_cons in E2. destruct E2 as (s1 & H1 & Hm). apply in_rseq_cons in Hm. destruct Hm as (s2 & H2 & Hm).
      apply in_rseq_cons in Hm. destruct Hm as (s3 & H3 & Hm). apply in_rseq_cons in Hm. destruct Hm as (s4 & H4 & Hm).
      apply in_rseq_cons in Hm. destruct Hm as (s5 & H5 & Hm). apply group_kept with (n := 3%nat) in Hm; [|reflexivity].
      assert (K4 : group 3 (caps s4) = None).
      { rewrite (kept 3 _ _ _ H4 eq_refl), (kept 3 _ _ _ H3 eq_refl), (kept 3 _ _ _ H2 eq_refl), (kept 3 _ _ _ H1 eq_refl). reflexivity. }
      apply in_opt in H5. destruct H5 as [H5| ->]; [|congruence].
      destruct (consumed _ _ _ H1) as (w1 & _ & F1). destruct (consumed _ _ _ H2) as (w2 & _ & F2). destruct (consumed _ _ _ H3) as (w3 & D3 & F3).
      destruct (consumed _ _ _ H4) as (w4 & _ & F4). destruct (consumed _ _ _ H5) as (w5 & D5 & F5). apply least_sound in D3, D5.
      cbn [after] in F1. rewrite F1, F2, F3, F4, F5, !total_app. change (least (lit 58)) with 3 in D3.
      change (least (rseq [lit 58; RGrp 3 (rseq [digit; digit])])) with 3 in D5. lia. }
    set (sec := match group 3 (caps st) with Some s => _ | None => 0 end).
    assert (S3 : negb (sec =? 0) = true -> 6 <= total s).
    { subst sec. destruct (group 3 (caps st)) as [x|]; [intros _; apply (C3 x eq_refl)|discriminate]. }
    destruct (negb (sec =? 0)).
    + specialize (S3 eq_refl). destruct (match group 4 _ with Some m => _ | None => _ end); cbn [light]; repeat constructor;
      (eapply N.le_trans; [apply T; [cbn; lia|repeat constructor; apply total_dec_N]|cbn [length pred]; lia]).
    + destruct (_ =? 0); destruct (match group 4 _ with Some m => _ | None => _ end); cbn [light]; repeat constructor; try (rewrite total_dec_N; lia);
      (eapply N.le_trans; [apply T; [cbn; lia|repeat constructor; apply total_dec_N]|cbn [length pred]; lia]).
Qed.

Section Normalize.
Variable ints : pystr -> pystr.
Hypothesis light_ints : forall x, total (ints x) <= total x.
Lemma total_further s : total (further ints s) <= total s.
Proof.
  unfold further. set (a := if _ && _ then mid s else s). assert (A : total a <= total s) by (subst a; destruct (_ && _); [apply total_mid|lia]).
  set (b := norm_int a). pose proof (total_norm_int a) as B. fold b in B.
  set (c := if contains [bslash] b then parse_latex b else b).
  assert (C : total c <= total b) by (subst c; destruct (contains _ b); [apply total_parse_latex|lia]).
  set (d := lower _). assert (D : total d <= total c).
  { subst d. eapply N.le_trans; [apply total_lower|]. eapply N.le_trans; [rep|]. eapply N.le_trans; [apply total_mixed|].
    apply total_lit_sub. vm_compute. discriminate. }
  destruct (str_is_int d); [specialize (light_ints d)|]; lia.
Qed.
Lemma light_circ s : light (total s) (norm_circ ints s).
Proof.
  unfold norm_circ. destruct (re_test circ_re s); cbn [light]; [|apply total_further].
  repeat constructor; (eapply N.le_trans; [apply total_further|]); [apply total_del|apply total_circ_num].
Qed.
Lemma light_le a b n : light a n -> a <= b -> light b n.
Proof. destruct n as [s|l]; cbn [light]; intros H L; [lia|]. eapply Forall_impl; [|exact H]. cbn. intros. lia. Qed.
Lemma light_tail s : light (total s) (norm_tail ints s).
Proof.
  unfold norm_tail. pose proof (total_tex_space s) as L. set (e := del_tex_space s) in *.
  destruct (re_search base_re e) as [st|] eqn:E.
  - cbn [light]. repeat constructor; [|rewrite total_dec_N; lia]. pose proof (total_grp _ _ _ 1 E). lia.
  - set (e1 := if contains (u "%") e then _ else e). destruct (contains (u "%") e) eqn:Ec.
    + assert (P : 10 <= total e).
      { apply contains_spec in Ec. destruct Ec as (x & y & ->). rewrite !total_app. change (total (u "%")) with 10. lia. }
      destruct (py_float e1) as [f|].
      * cbn [light]. repeat constructor; [pose proof (total_float_str (div100 f))|pose proof (total_float_str f)]; lia.
      * assert (total e1 <= total e) by (subst e1; eapply N.le_trans; rep). pose proof (total_words e1).
        pose proof (light_time (rewrite_words e1)) as T. destruct (str_to_time_list _) as [t|l]; [|eapply light_le; [exact T|lia]].
        cbn [light] in T. pose proof (total_units t). eapply light_le; [apply light_circ|lia].
    + pose proof (total_words e1). subst e1. pose proof (light_time (rewrite_words e)) as T. destruct (str_to_time_list _) as [t|l]; [|eapply light_le; [exact T|lia]].
      cbn [light] in T. pose proof (total_units t). eapply light_le; [apply light_circ|lia].
Qed.
Lemma light_fuel n : forall s, light (total s) (norm_fuel ints n s).
Proof.
  induction n as [|n IH]; intro s; cbn [norm_fuel]; set (e := str_matrix_normalize (strip_sp s));
  assert (L : total e <= total s) by (subst e; eapply N.le_trans; [apply total_matrix_normalize|apply total_strip_by]);
  (destruct (re_search text_wrap_re e) as [st|] eqn:E1; [|destruct (re_search set_builder_re e) as [st|] eqn:E2]).
  - cbn [light]; lia.
  - destruct (grp 2 st); cbn [light]; lia.
  - eapply light_le; [apply light_tail|lia].
  - pose proof (total_grp _ _ _ 2 E1). eapply light_le; [apply IH|lia].
  - pose proof (total_grp _ _ _ 2 E2) as G. destruct (grp 2 st) as [|c r]; [cbn [light]; lia|]. eapply light_le; [apply IH|lia].
  - eapply light_le; [apply light_tail|lia].
Qed.
Lemma light_normalize s : light (total s) (string_normalize ints s).
Proof. apply light_fuel. Qed.
End Normalize.
