(** Clock times. *)
From Coq Require Import String List NArith ZArith Bool Lia Arith.
From Verif Require Import UnicodeTables PyStr PyStrTheory NumTheory Regex RegexTheory Float64 FloatTheory Constants Normalize NormTheory RegexFirst NormNum NormPct NormMixed.
Import ListNotations.
Local Open Scope N_scope.
Local Arguments N.eqb : simpl never.

(** ** Spellings of am/pm *)
Definition letters_am : list (bool * N) := [(false, 97); (false, 65); (true, 112); (true, 80)].
(** [(pm, text)]; without the first dot, or with both, p means pm. *)
Definition am_texts : list (bool * pystr) :=
  flat_map (fun '(p, c) => flat_map (fun m => [(p, [c; m]); (p, [c; m; 46]); (false, [c; 46; m]); (p, [c; 46; m; 46])]) [109; 77]) letters_am.
Definition text_cmds : list pystr :=
  flat_map (fun a => flat_map (fun b => flat_map (fun c => map (fun d => [92; a; b; c; d; 123]) [116; 84]) [120; 88]) [101; 69]) [116; 84].
Inductive meridiem (pm : bool) : pystr -> Prop :=
| mer_bare x : In (pm, x) am_texts -> meridiem pm x
| mer_text t x i j : In t text_cmds -> In (pm, x) am_texts -> meridiem pm (t ++ spaces i ++ x ++ spaces j ++ [125]).

Ltac each H := cbn in H; repeat (destruct H as [H|H]; [try (injection H as <- <-); try subst|]); [..|contradiction].

Definition quiet_head (s : pystr) : Prop := match s with [] => True | c :: _ => c = 32 \/ c = 125 end.
Lemma fm_am pm x pre s cs : In (pm, x) am_texts -> quiet_head s -> fm ap_m (MSt pre (x ++ s) cs) (MSt (rev x ++ pre) s cs).
Proof.
  intros H Hs. destruct s as [|c s]; [|cbn in Hs; destruct Hs as [-> | ->]]; each H; reflexivity.
Qed.
Lemma fm_text_cmd t pre s cs : In t text_cmds -> fm (rci (u "\text{")) (MSt pre (t ++ s) cs) (MSt (rev t ++ pre) s cs).
Proof. intro H. each H; reflexivity. Qed.
Lemma am_head pm x s : In (pm, x) am_texts -> exists c r, x ++ s = c :: r /\ In c [97; 65; 112; 80].
Proof. intro H. each H; cbn [app]; eexists; eexists; (split; [reflexivity|cbn; tauto]). Qed.
Lemma spaces_space k : forallb (cls_in CSpace) (spaces k) = true.
Proof. apply forallb_forall. intros c Hc. apply repeat_spec in Hc. subst. reflexivity. Qed.
Lemma fm_meridiem pm x pre cs : meridiem pm x -> fm meridiem_re (MSt pre x cs) (MSt (rev x ++ pre) [] cs).
Proof.
  destruct 1 as [x H|t x i j Ht H]; unfold meridiem_re.
  - apply fm_alt_r.
    + apply nm_seq_l. destruct (am_head pm x [] H) as (c & r & E & Hc). rewrite app_nil_r in E. rewrite E. cbn [u rci]. apply nm_seq_l.
      each Hc; reflexivity.
    + rewrite <- (app_nil_r x) at 1. apply (fm_am pm); [exact H|exact I].
  - apply fm_alt_l. cbn [rseq].
    apply fm_seq with (MSt (rev t ++ pre) (spaces i ++ x ++ spaces j ++ [125]) cs); [apply fm_text_cmd, Ht|].
    apply fm_seq with (MSt (rev (spaces i) ++ rev t ++ pre) (x ++ spaces j ++ [125]) cs).
    { apply fm_run; [apply spaces_space|]. destruct (am_head pm x (spaces j ++ [125]) H) as (c & r & E & Hc). rewrite E. each Hc; reflexivity. }
    apply fm_seq with (MSt (rev x ++ rev (spaces i) ++ rev t ++ pre) (spaces j ++ [125]) cs).
    { apply (fm_am pm); [exact H|]. destruct j; cbn; tauto. }
    apply fm_seq with (MSt (rev (spaces j) ++ rev x ++ rev (spaces i) ++ rev t ++ pre) [125] cs); [apply fm_run; [apply spaces_space|reflexivity]|].
    apply fm_seq with (MSt (125 :: rev (spaces j) ++ rev x ++ rev (spaces i) ++ rev t ++ pre) [] cs); [apply fm_chr; reflexivity|].
    rewrite !rev_app_distr. cbn [rev app]. rewrite <- !app_assoc. cbn [app]. apply fm_eps.
Qed.

(** ** pm *)
Lemma lower_app a b : lower (a ++ b) = lower a ++ lower b.
Proof. unfold lower. apply flat_map_app. Qed.
Lemma lower_spaces k : lower (spaces k) = spaces k.
Proof. induction k; [reflexivity|]. cbn [spaces repeat]. unfold lower in *. cbn [flat_map]. fold (spaces k). rewrite IHk. reflexivity. Qed.
Lemma contains_prefix (alpha : N -> bool) c p ds s : alpha c = false -> forallb alpha ds = true -> contains (c :: p) (ds ++ s) = contains (c :: p) s.
Proof.
  intro Hc. induction ds as [|d ds IH]; intro H; [reflexivity|]. cbn [forallb] in H. apply andb_true_iff in H. destruct H as [Hd H].
  cbn [app contains starts_with]. destruct (N.eqb_spec c d) as [->|_]; [congruence|]. cbn [andb orb]. apply IH, H.
Qed.
Definition quiet_cp (c : N) : bool := mem_cp (u " }") c.
Lemma quiet_spaces j : forallb quiet_cp (spaces j ++ [125]) = true.
Proof. rewrite forallb_app. assert (forallb quiet_cp (spaces j) = true) as ->; [|reflexivity]. apply forallb_forall. intros c Hc. apply repeat_spec in Hc. subst. reflexivity. Qed.
Lemma contains_cons p c s : contains p (c :: s) = starts_with p (c :: s) || contains p s.
Proof. reflexivity. Qed.
Lemma am_pm pm x s : In (pm, x) am_texts -> s = [] \/ (exists j, s = spaces j ++ [125]) ->
  contains (u "p.m.") (lower x ++ s) || contains (u "pm") (lower x ++ s) = pm.
Proof.
  intros H Hs. assert (Q : forallb quiet_cp s = true) by (destruct Hs as [-> |[j ->]]; [reflexivity|apply quiet_spaces]).
  assert (C : forall p, In p [[112; 46; 109; 46]; [112; 109]] -> contains p s = false).
  { intros p Hp. apply (alpha_contains quiet_cp); [each Hp; reflexivity|exact Q]. }
  assert (D : s = [] \/ exists s', s = 32 :: s' \/ s = 125 :: s').
  { destruct Hs as [-> |[j ->]]; [auto|right]. destruct j; cbn; eauto. }
  change (u "p.m.") with [112; 46; 109; 46]. change (u "pm") with [112; 109].
  each H; match goal with |- context [lower ?l ++ s] => let v := eval vm_compute in (lower l) in change (lower l) with v end;
    cbn [app]; rewrite !contains_cons, !C by (cbn; tauto); rewrite !orb_false_r;
    (destruct D as [-> |(s' & [-> | ->])]; lazy [starts_with N.eqb Pos.eqb andb orb]; reflexivity).
Qed.
Lemma is_pm_spec pm x : meridiem pm x -> is_pm x = pm.
Proof.
  destruct 1 as [x H|t x i j Ht H]; unfold is_pm.
  - rewrite <- (app_nil_r (lower x)). apply am_pm; auto.
  - rewrite !lower_app, !lower_spaces. change (lower [125]) with [125].
    assert (E : lower t = u "\text{") by (each Ht; vm_compute; reflexivity). rewrite E.
    rewrite !(app_assoc (u "\text{")).
    change (u "p.m.") with (112 :: [46; 109; 46]). change (u "pm") with (112 :: [109]).
    assert (P : forallb (fun c => negb (c =? 112)) (u "\text{" ++ spaces i) = true).
    { rewrite forallb_app. assert (forallb (fun c => negb (c =? 112)) (spaces i) = true) as ->; [|reflexivity].
      apply forallb_forall. intros c Hc. apply repeat_spec in Hc. subst. reflexivity. }
    rewrite !(contains_prefix (fun c => negb (c =? 112)) 112 _ (u "\text{" ++ spaces i)) by (reflexivity || exact P).
    apply (am_pm pm x (spaces j ++ [125]) H). right; eauto.
Qed.

(** ** Clock texts *)
Definition two (l : pystr) : Prop := Forall ascii_digit l /\ length l = 2%nat.
Definition one_two (l : pystr) : Prop := Forall ascii_digit l /\ (length l = 1%nat \/ length l = 2%nat).
(** What may follow the digits: nothing, or spaces and am/pm. *)
Inductive time_tail : bool -> pystr -> Prop :=
| tail_none : time_tail false []
| tail_mer pm k x : meridiem pm x -> time_tail pm (spaces k ++ x).

Lemma one_two_cases l : one_two l -> exists a, ascii_digit a /\ (l = [a] \/ exists b, ascii_digit b /\ l = [a; b]).
Proof.
  intros [F L]. destruct l as [|a [|b [|c l]]]; cbn in L; try lia; inversion F as [|? ? Ha F']; subst; exists a; split; auto.
  right. inversion F'; subst. exists b. auto.
Qed.
Lemma two_cases l : two l -> exists a b, ascii_digit a /\ ascii_digit b /\ l = [a; b].
Proof.
  intros [F L]. destruct l as [|a [|b [|c l]]]; cbn in L; try lia. inversion F as [|? ? Ha F']; subst. inversion F'; subst. exists a, b. auto.
Qed.
Lemma fm_digit c pre s cs : ascii_digit c -> fm digit (MSt pre (c :: s) cs) (MSt (c :: pre) s cs).
Proof. intro H. apply fm_chr, ascii_is_digit, H. Qed.
Lemma fm_one_two n H pre s cs : one_two H -> match s with [] => True | c :: _ => is_digit c = false end ->
  fm (RGrp n (rseq [digit; ROpt digit])) (MSt pre (H ++ s) cs) (MSt (rev H ++ pre) s ((n, H) :: cs)).
Proof.
  intros HH Hs. apply fm_grp. cbn [rseq]. destruct (one_two_cases H HH) as (a & Ha & [-> |(b & Hb & ->)]); cbn [app rev].
  - apply fm_seq with (MSt (a :: pre) s cs); [apply fm_digit, Ha|]. apply fm_seq with (MSt (a :: pre) s cs); [|apply fm_eps].
    apply fm_opt_none. destruct s; [apply nm_chr_nil|apply nm_chr, Hs].
  - apply fm_seq with (MSt (a :: pre) (b :: s) cs); [apply fm_digit, Ha|].
    apply fm_seq with (MSt (b :: a :: pre) s cs); [|apply fm_eps]. apply fm_opt, fm_digit, Hb.
Qed.
Lemma fm_two n M pre s cs : two M -> fm (RGrp n (rseq [digit; digit])) (MSt pre (M ++ s) cs) (MSt (rev M ++ pre) s ((n, M) :: cs)).
Proof.
  intro H. apply fm_grp. destruct (two_cases M H) as (a & b & Ha & Hb & ->). cbn [rseq app rev].
  apply fm_seq with (MSt (a :: pre) (b :: s) cs); [apply fm_digit, Ha|].
  apply fm_seq with (MSt (b :: a :: pre) s cs); [apply fm_digit, Hb|apply fm_eps].
Qed.
Lemma mer_head pm x : meridiem pm x -> exists c r, x = c :: r /\ In c [97; 65; 112; 80; 92].
Proof.
  destruct 1 as [x H|t x i j Ht H].
  - destruct (am_head pm x [] H) as (c & r & E & Hc). rewrite app_nil_r in E. exists c, r. split; [exact E|]. cbn in *. tauto.
  - each Ht; eexists; eexists; (split; [reflexivity|cbn; tauto]).
Qed.
Lemma tail_head pm t : time_tail pm t -> match t with [] => True | c :: _ => In c [32; 97; 65; 112; 80; 92] end.
Proof.
  destruct 1 as [|pm k x M]; [exact I|]. destruct (mer_head pm x M) as (c & r & -> & Hc). destruct k; cbn in *; tauto.
Qed.
Lemma fm_tail pm t pre cs : time_tail pm t -> exists b cs',
  fm (rseq [RStarG (RChr CSpace); ROpt (RGrp 4 meridiem_re); REol]) (MSt pre t cs) (MSt b [] cs') /\
  (forall n, n <> 4%nat -> group n cs' = group n cs) /\
  match group 4 cs' with Some m => is_pm m | None => false end =
    (pm || match t with [] => match group 4 cs with Some m => is_pm m | None => false end | _ => false end).
Proof.
  destruct 1 as [|pm k x M]; cbn [rseq].
  - exists pre, cs. split; [|split; [reflexivity|reflexivity]].
    apply fm_seq with (MSt pre [] cs); [apply fm_run_nil; exact I|]. apply fm_seq with (MSt pre [] cs); [apply fm_opt_none; reflexivity|reflexivity].
  - exists (rev x ++ rev (spaces k) ++ pre), ((4%nat, x) :: cs). split; [|split].
    + destruct (mer_head pm x M) as (c & r & E & Hc).
      apply fm_seq with (MSt (rev (spaces k) ++ pre) x cs). { apply fm_run; [apply spaces_space|]. rewrite E. each Hc; reflexivity. }
      apply fm_seq with (MSt (rev x ++ rev (spaces k) ++ pre) [] ((4%nat, x) :: cs)); [|reflexivity].
      apply fm_opt. rewrite <- (app_nil_r x) at 1. apply fm_grp. rewrite app_nil_r. apply (fm_meridiem pm), M.
    + intros n Hn. cbn [group]. destruct (Nat.eqb_spec 4 n); [congruence|reflexivity].
    + cbn [group Nat.eqb]. rewrite (is_pm_spec pm x M). destruct (mer_head pm x M) as (c & r & -> & _). destruct k; cbn; rewrite orb_false_r; reflexivity.
Qed.

Definition secs (So : option pystr) : pystr := match So with Some So => 58 :: So | None => [] end.
Definition clock (H M : pystr) (So : option pystr) (t : pystr) : pystr := H ++ 58 :: M ++ secs So ++ t.
Lemma time2_match H M So pm t : one_two H -> two M -> (forall s, So = Some s -> two s) -> time_tail pm t ->
  exists st, re_search time_re2 (clock H M So t) = Some st /\ group 1 (caps st) = Some H /\ group 2 (caps st) = Some M /\
    group 3 (caps st) = So /\ match group 4 (caps st) with Some m => is_pm m | None => false end = pm.
Proof.
  intros HH HM HS Ht. rewrite anchored_search by reflexivity.
  set (cs2 := [(2%nat, M); (1%nat, H)]). set (cs3 := match So with Some s => (3%nat, s) :: cs2 | None => cs2 end).
  set (pre3 := rev (secs So) ++ rev M ++ 58 :: rev H).
  destruct (fm_tail pm t pre3 cs3 Ht) as (b & cs' & Hf & Hg & Hp).
  exists (MSt b [] cs'). cbn [caps]. split.
  - apply fm_match_at. unfold time_re2, clock. cbn [rseq].
    apply fm_seq with (MSt [] (H ++ 58 :: M ++ secs So ++ t) []); [apply fm_bol|].
    apply fm_seq with (MSt (rev H) (58 :: M ++ secs So ++ t) [(1%nat, H)]).
    { rewrite <- (app_nil_r (rev H)). apply fm_one_two; [exact HH|reflexivity]. }
    apply fm_seq with (MSt (58 :: rev H) (M ++ secs So ++ t) [(1%nat, H)]); [apply fm_chr; reflexivity|].
    apply fm_seq with (MSt (rev M ++ 58 :: rev H) (secs So ++ t) cs2); [apply fm_two, HM|].
    apply fm_seq with (MSt pre3 t cs3); [|exact Hf].
    unfold pre3, cs3. destruct So as [s|]; cbn [secs app rev].
    + apply fm_opt. apply fm_seq with (MSt (58 :: rev M ++ 58 :: rev H) (s ++ t) cs2); [apply fm_chr; reflexivity|].
      rewrite <- app_assoc. cbn [app]. apply fm_seq with (MSt (rev s ++ 58 :: rev M ++ 58 :: rev H) t ((3%nat, s) :: cs2)); [|apply fm_eps].
      apply fm_two, HS. reflexivity.
    + apply fm_opt_none. pose proof (tail_head pm t Ht) as Th. destruct t as [|c t]; [reflexivity|]. apply nm_seq_l, nm_chr. each Th; reflexivity.
  - rewrite !Hg by discriminate. rewrite Hp. unfold cs3.
    destruct So; cbn; (repeat split; try reflexivity); destruct t, pm; reflexivity.
Qed.
Lemma time1_match H pm k x : one_two H -> meridiem pm x ->
  exists st, re_search time_re1 (H ++ spaces k ++ x) = Some st /\ group 1 (caps st) = Some H /\ grp 2 st = x.
Proof.
  intros HH M. rewrite anchored_search by reflexivity. destruct (mer_head pm x M) as (c & r & E & Hc).
  exists (MSt (rev x ++ rev (spaces k) ++ rev H) [] [(2%nat, x); (1%nat, H)]). split; [|split; reflexivity].
  apply fm_match_at. unfold time_re1. cbn [rseq].
  apply fm_seq with (MSt [] (H ++ spaces k ++ x) []); [apply fm_bol|].
  apply fm_seq with (MSt (rev H) (spaces k ++ x) [(1%nat, H)]).
  { rewrite <- (app_nil_r (rev H)). apply fm_one_two; [exact HH|]. destruct k; [rewrite E; each Hc; reflexivity|reflexivity]. }
  apply fm_seq with (MSt (rev (spaces k) ++ rev H) x [(1%nat, H)]). { apply fm_run; [apply spaces_space|]. rewrite E. each Hc; reflexivity. }
  apply fm_seq with (MSt (rev x ++ rev (spaces k) ++ rev H) [] [(2%nat, x); (1%nat, H)]); [|reflexivity].
  rewrite <- (app_nil_r x) at 1. apply fm_grp. rewrite app_nil_r. apply (fm_meridiem pm), M.
Qed.

(** A pattern ending in $ reads the string up to its end or a final newline. *)
Lemma in_rseq_app a b st st' : In st' (matches (rseq (a ++ b)) st) <-> exists st1, In st1 (matches (rseq a) st) /\ In st' (matches (rseq b) st1).
Proof.
  revert st. induction a as [|r a IH]; intro st.
  - cbn [app]. split; [intro H; exists st; split; [left; reflexivity|exact H]|]. intros (st1 & H1 & H2). apply in_rseq_nil in H1. subst. exact H2.
  - cbn [app]. rewrite in_rseq_cons. split.
    + intros (st1 & H1 & H2). apply IH in H2. destruct H2 as (st2 & H2 & H3). exists st2. split; [apply in_rseq_cons; eauto|exact H3].
    + intros (st2 & H2 & H3). apply in_rseq_cons in H2. destruct H2 as (st1 & H1 & H2). exists st1. split; [exact H1|]. apply IH. eauto.
Qed.
(** [r] reads no [c]. *)
Fixpoint avoids (c : N) (r : regex) : bool :=
  match r with
  | RChr k => negb (cls_in k c)
  | RSeq a b | RAlt a b => avoids c a && avoids c b
  | RStar _ a | RGrp _ a => avoids c a
  | _ => true
  end.
Lemma avoids_sound c r w : avoids c r = true -> den r w -> ~ In c w.
Proof.
  revert w; induction r as [|k|a IHa b IHb|a IHa b IHb|g a IHa|n a IHa| | |q k|q k]; intros w Hn Hd; cbn [avoids den] in Hn, Hd;
    try (subst w; exact (fun H => H)).
  - destruct Hd as (d & -> & Hd). intros [->|[]]. rewrite Hd in Hn. discriminate.
  - apply andb_true_iff in Hn. destruct Hd as (w1 & w2 & -> & H1 & H2). intro Hi. apply in_app_or in Hi. destruct Hi as [Hi|Hi].
    + apply (IHa w1); tauto.
    + apply (IHb w2); tauto.
  - apply andb_true_iff in Hn. destruct Hd as [Hd|Hd]; [apply IHa|apply IHb]; tauto.
  - induction Hd as [|w v _ Hw _ IH]; [exact (fun H => H)|]. intro Hi. apply in_app_or in Hi. destruct Hi as [Hi|Hi]; [apply (IHa w Hn Hw Hi)|apply IH, Hi].
  - apply IHa; assumption.
Qed.
Lemma full_search_none l c s : avoids c (rseq l) = true -> c <> 10 -> In c s -> match_at (rseq (RBol :: l ++ [REol])) [] s = None.
Proof.
  intros Ha Hc Hin. apply match_at_none. destruct (matches _ _) as [|st ms] eqn:E; [reflexivity|]. exfalso.
  assert (Hst : In st (matches (rseq (RBol :: l ++ [REol])) (MSt [] s []))) by (rewrite E; left; reflexivity).
  apply in_rseq_cons in Hst. destruct Hst as (st0 & H0 & Hst). apply in_bol in H0. destruct H0 as [_ ->].
  apply in_rseq_app in Hst. destruct Hst as (st1 & H1 & H2).
  apply matches_sound in H1. destruct H1 as (w & [Hw _] & Hd & _). cbn [after] in Hw.
  apply in_rseq_cons in H2. destruct H2 as (st2 & H2 & _). destruct st1 as [b1 a1 c1]. apply in_eol in H2. destruct H2 as [He _].
  cbn [after] in Hw. subst s. apply in_app_or in Hin. destruct Hin as [Hin|Hin]; [apply (avoids_sound c _ _ Ha Hd Hin)|].
  destruct a1 as [|x [|y a1]]; [contradiction| |discriminate]. cbn in He. apply N.eqb_eq in He. destruct Hin as [Hin|[]]. congruence.
Qed.
Lemma time1_colon s : In 58 s -> re_search time_re1 s = None.
Proof.
  intro H. rewrite anchored_search by reflexivity.
  apply (full_search_none [RGrp 1 (rseq [digit; ROpt digit]); RStarG (RChr CSpace); RGrp 2 meridiem_re] 58); [vm_compute; reflexivity|discriminate|exact H].
Qed.

(** The meaning of a clock time. *)
Definition num (l : pystr) : N := dec_value l.
Definition shown (pm : bool) (h : N) (rest : list N) : norm :=
  let show h := match rest with [] => dec_N h | _ => time_list (map dec_N (h :: rest)) end in
  if pm then NSet [show (h mod 12); show (h mod 12 + 12)] else NStr (show h).
Lemma int_of_digits_dec l : Forall ascii_digit l -> int_of_digits l = dec_value l.
Proof.
  intro F. rewrite <- ascii_int_dec. unfold int_of_digits, ascii_int. generalize 0. induction F as [|c l Hc F IH]; intro acc; [reflexivity|].
  cbn [fold_left]. rewrite (ascii_digit_value c Hc). apply IH.
Qed.
Lemma clock_list H M So pm t : one_two H -> two M -> (forall s, So = Some s -> two s) -> time_tail pm t ->
  str_to_time_list (clock H M So t) =
    shown pm (num H) (match So with
                      | Some s => if num s =? 0 then if num M =? 0 then [] else [num M] else [num M; num s]
                      | None => if num M =? 0 then [] else [num M] end).
Proof.
  intros HH HM HS Ht. unfold str_to_time_list. rewrite time1_colon by (unfold clock; apply in_or_app; right; left; reflexivity).
  destruct (time2_match H M So pm t HH HM HS Ht) as (st & E & G1 & G2 & G3 & Gp). rewrite E. unfold grp. rewrite G1, G2, G3, Gp.
  rewrite !int_of_digits_dec by (apply HH || apply HM). unfold shown, num.
  destruct So as [s|]; [rewrite int_of_digits_dec by (apply HS; reflexivity)|].
  - destruct (dec_value s =? 0); cbn [negb]; [|destruct pm; reflexivity]. destruct (dec_value M =? 0); destruct pm; reflexivity.
  - cbn [N.eqb negb]. change (0 =? 0) with true. cbn [negb]. destruct (dec_value M =? 0); destruct pm; reflexivity.
Qed.

(** ** The pipeline before the clock rule *)
Definition time_cp : N -> bool := digits_and (u ": .\textTEXaApPmM{}").
Lemma den_rstr t w : den (rstr t) w -> w = t.
Proof.
  revert w. induction t as [|c t IH]; intros w H; cbn [rstr den] in H; [exact H|].
  destruct H as (w1 & w2 & -> & (d & -> & Hd) & H2). apply IH in H2. cbn in Hd. apply N.eqb_eq in Hd. subst. reflexivity.
Qed.
Lemma sub_rstr_absent t p s : contains t s = false -> re_sub (rstr t) p s = s.
Proof.
  intro H. apply sub_id_den. intros w (a & b & ->) _ Hd. apply den_rstr in Hd. subst.
  assert (contains t (a ++ t ++ b) = true) by (apply contains_spec; eauto). congruence.
Qed.
Lemma time_pre ints T c T' : T = c :: T' -> ascii_digit c -> (match rev T with [] => True | x :: _ => x <> 32 end) -> forallb time_cp T = true ->
  contains [92; 92] T = false -> contains [92; 58] T = false ->
  string_normalize ints T = match str_to_time_list T with NSet l => NSet l | NStr e => norm_circ ints (del_units e) end.
Proof.
  intros ET Hc Hl HT H92 H58. unfold string_normalize.
  assert (E1 : strip_sp T = T).
  { apply strip_by_id; [subst T; apply N.eqb_neq; unfold ascii_digit in Hc; lia|]. destruct (rev T); [exact I|]. apply N.eqb_neq. congruence. }
  assert (E2 : str_matrix_normalize T = T).
  { unfold str_matrix_normalize. rewrite (alpha_contains time_cp (u "{cases}")), (alpha_contains time_cp (u "{array}")) by (reflexivity || exact HT).
    rewrite (alpha_contains time_cp (u "matrix")) by (reflexivity || exact HT). rewrite andb_false_r. cbn [negb]. apply replace_absent, H92. }
  assert (E3 : re_search text_wrap_re T = None).
  { rewrite anchored_search by reflexivity. apply nm_match_at. subst T. unfold text_wrap_re. cbn [rseq].
    eapply nm_seq_r; [reflexivity|]. apply nm_seq_l, nm_chr. cbn. apply N.eqb_neq. unfold ascii_digit in Hc. unfold bslash. lia. }
  assert (E4 : re_search set_builder_re T = None) by (apply (alpha_search time_cp); [vm_compute; reflexivity|exact HT]).
  assert (E5 : del_tex_space T = T).
  { unfold del_tex_space, re_del.
    rewrite (sub_rstr_absent (u "\:") [] T H58 : re_sub (rs "\:") [] T = T).
    rewrite ?(fun r t => alpha_sub time_cp r t T) by ((vm_compute; reflexivity) || exact HT). reflexivity. }
  assert (E6 : rewrite_words T = T).
  { unfold rewrite_words.
    rewrite (alpha_replace time_cp (u "\$")), (alpha_replace time_cp (u "$")) by (reflexivity || exact HT).
    rewrite (alpha_sub time_cp and_or_re) by ((vm_compute; reflexivity) || exact HT).
    rewrite ?(fun p q => alpha_replace time_cp p q T) by (reflexivity || exact HT). unfold re_del.
    rewrite ?(fun r t => alpha_sub time_cp r t T) by ((vm_compute; reflexivity) || exact HT). reflexivity. }
  assert (E7 : re_search base_re T = None) by (apply (alpha_search time_cp); [vm_compute; reflexivity|exact HT]).
  assert (E8 : norm_tail ints T = match str_to_time_list T with NSet l => NSet l | NStr e => norm_circ ints (del_units e) end).
  { unfold norm_tail. cbv zeta. rewrite E5, E7, (alpha_contains time_cp (u "%")) by (reflexivity || exact HT). rewrite E6. reflexivity. }
  destruct (2 * length T)%nat; cbn [norm_fuel]; rewrite E1, E2, E3, E4; exact E8.
Qed.

(** Clock texts satisfy the conditions. *)
Lemma spaces_alpha l k : mem_cp l 32 = true -> forallb (digits_and l) (spaces k) = true.
Proof. intro H. apply forallb_forall. intros c Hc. apply repeat_spec in Hc. subst. unfold digits_and. rewrite H, orb_true_r. reflexivity. Qed.
Lemma mer_alpha pm x : meridiem pm x -> forallb time_cp x = true.
Proof.
  destruct 1 as [x H|t x i j Ht H]; [each H; reflexivity|]. unfold time_cp.
  rewrite !forallb_app, !spaces_alpha by reflexivity.
  assert (forallb (digits_and (u ": .\textTEXaApPmM{}")) t = true) as -> by (each Ht; reflexivity).
  assert (forallb (digits_and (u ": .\textTEXaApPmM{}")) x = true) as -> by (each H; reflexivity). reflexivity.
Qed.
Lemma mer_last pm x p : meridiem pm x -> match rev (p ++ x) with [] => True | y :: _ => y <> 32 end.
Proof.
  intro M. rewrite rev_app_distr. destruct M as [x H|t x i j Ht H]; [each H; cbn; discriminate|].
  rewrite !rev_app_distr. cbn. discriminate.
Qed.
Definition nobs (c : N) : bool := negb (c =? 92).
Lemma no_backslash p s : forallb nobs s = true -> contains (92 :: p) s = false.
Proof. intro H. apply (alpha_contains nobs); [reflexivity|exact H]. Qed.
Lemma mer_backslash pm x c pre : meridiem pm x -> c <> 116 -> c <> 84 -> forallb nobs pre = true -> contains [92; c] (pre ++ x) = false.
Proof.
  intros M N1 N2 Hp. rewrite (contains_prefix nobs) by (reflexivity || exact Hp). destruct M as [x H|t x i j Ht H].
  - apply no_backslash. each H; reflexivity.
  - assert (S : forallb nobs (spaces i ++ x ++ spaces j ++ [125]) = true).
    { assert (Z : forall k, forallb nobs (spaces k) = true) by (intro k; apply forallb_forall; intros y Hy; apply repeat_spec in Hy; subst; reflexivity).
      rewrite !forallb_app, !Z. assert (forallb nobs x = true) as -> by (each H; reflexivity). reflexivity. }
    set (s := spaces i ++ x ++ spaces j ++ [125]) in *. clearbody s. apply N.eqb_neq in N1, N2.
    each Ht; cbn [app]; rewrite contains_cons, no_backslash by (cbn [forallb]; rewrite S; reflexivity);
      cbn [starts_with]; rewrite ?N1, ?N2; reflexivity.
Qed.
Lemma digits_nobs l : Forall ascii_digit l -> forallb nobs l = true.
Proof. intro F. apply forallb_forall. intros c Hc. rewrite Forall_forall in F. apply F in Hc. unfold ascii_digit in Hc. unfold nobs. destruct (N.eqb_spec c 92); [lia|reflexivity]. Qed.
Lemma tail_ok pm t pre : time_tail pm t -> forallb time_cp pre = true -> forallb nobs pre = true -> (match rev pre with [] => True | y :: _ => y <> 32 end) ->
  (match rev (pre ++ t) with [] => True | y :: _ => y <> 32 end) /\ forallb time_cp (pre ++ t) = true /\
  contains [92; 92] (pre ++ t) = false /\ contains [92; 58] (pre ++ t) = false.
Proof.
  intros Ht Ha Hb Hl. destruct Ht as [|pm k x M].
  - rewrite app_nil_r. split; [exact Hl|]. split; [exact Ha|]. split; apply no_backslash, Hb.
  - rewrite app_assoc. split; [apply (mer_last pm), M|]. split.
    + rewrite !forallb_app, Ha, (mer_alpha pm x M). rewrite (spaces_alpha (u ": .\textTEXaApPmM{}") k eq_refl : forallb time_cp (spaces k) = true). reflexivity.
    + assert (Z : forallb nobs (pre ++ spaces k) = true).
      { rewrite forallb_app, Hb. apply forallb_forall. intros y Hy; apply repeat_spec in Hy; subst; reflexivity. }
      split; apply (mer_backslash pm); auto; discriminate.
Qed.
Lemma clock_ok H M So pm t : one_two H -> two M -> (forall s, So = Some s -> two s) -> time_tail pm t -> forall ints,
  string_normalize ints (clock H M So t) =
    match str_to_time_list (clock H M So t) with NSet l => NSet l | NStr e => norm_circ ints (del_units e) end.
Proof.
  intros HH HM HS Ht ints. pose proof (one_two_cases H HH) as (a & Ha & HE).
  assert (E : exists T', clock H M So t = a :: T') by (destruct HE as [-> |(b & _ & ->)]; eexists; reflexivity). destruct E as [T' E].
  assert (R : clock H M So t = (H ++ 58 :: M ++ secs So) ++ t) by (unfold clock; rewrite <- app_assoc; cbn [app]; rewrite <- app_assoc; reflexivity).
  assert (D : forallb (digits_and [58]) (H ++ 58 :: M ++ secs So) = true).
  { change (H ++ 58 :: M ++ secs So) with (H ++ [58] ++ M ++ secs So). rewrite !forallb_app, (digits_and_digit [58] H (proj1 HH)), (digits_and_digit [58] M (proj1 HM)).
    destruct So as [s|]; [|reflexivity]. cbn [secs]. change (58 :: s) with ([58] ++ s). rewrite forallb_app, (digits_and_digit [58] s (proj1 (HS s eq_refl))). reflexivity. }
  assert (I : forall c, digits_and [58] c = true -> time_cp c = true /\ nobs c = true /\ c <> 32).
  { intros c. unfold digits_and, time_cp. destruct (is_ascii_digit c) eqn:Ed.
    - intros _. unfold digits_and. rewrite Ed. split; [reflexivity|]. apply ascii_digit_b in Ed. unfold ascii_digit in Ed. unfold nobs.
      destruct (N.eqb_spec c 92); [lia|]. split; [reflexivity|lia].
    - cbn. rewrite orb_false_r. intro Hc. apply N.eqb_eq in Hc. subst. repeat split; discriminate. }
  destruct (tail_ok pm t (H ++ 58 :: M ++ secs So) Ht) as (A1 & A2 & A3 & A4).
  - apply (forallb_impl _ _ _ (fun c h => proj1 (I c h)) D).
  - apply (forallb_impl _ _ _ (fun c h => proj1 (proj2 (I c h))) D).
  - destruct (rev (H ++ 58 :: M ++ secs So)) as [|y r] eqn:Er; [exact Logic.I|]. rewrite forallb_forall in D. apply (I y). apply D. apply in_rev. rewrite Er. left; reflexivity.
  - rewrite <- R in *. eapply time_pre; eauto.
Qed.

(** ** The list that remains *)
Definition tight (l : list pystr) : pystr :=
  [91] ++ (fix go l := match l with [] => [] | [x] => x | x :: l' => x ++ [44] ++ go l' end) l ++ [93].
Lemma replace_filter c s : replace [c] [] s = filter (fun x => negb (c =? x)) s.
Proof.
  unfold replace. induction s as [|x s IH]; [reflexivity|]. cbn [replace_go starts_with filter].
  destruct (c =? x); cbn [andb negb length Nat.sub app]; [exact IH|f_equal; exact IH].
Qed.
Lemma filter_none {A} (f : A -> bool) l : forallb f l = true -> filter f l = l.
Proof. induction l as [|x l IH]; intro H; [reflexivity|]. cbn [forallb filter] in *. apply andb_true_iff in H. destruct H as [-> H]. f_equal. auto. Qed.
Lemma digits_no_space l : Forall ascii_digit l -> filter (fun x => negb (32 =? x)) l = l.
Proof.
  intro F. apply filter_none. apply forallb_forall. intros c Hc. rewrite Forall_forall in F. apply F in Hc. unfold ascii_digit in Hc.
  destruct (N.eqb_spec 32 c); [lia|reflexivity].
Qed.
Lemma tight_replace l : (forall x, In x l -> Forall ascii_digit x) -> replace [32] [] (time_list l) = tight l.
Proof.
  intro H. rewrite replace_filter. unfold time_list, tight. cbn [app filter]. change (32 =? 91) with false. cbn [negb]. f_equal.
  rewrite filter_app. cbn [filter]. change (32 =? 93) with false. cbn [negb]. f_equal.
  induction l as [|x l IH]; [reflexivity|]. assert (Hx := digits_no_space x (H x (or_introl eq_refl))). destruct l as [|y l]; [exact Hx|].
  rewrite filter_app, Hx. f_equal. cbn [app filter]. change (32 =? 44) with false. change (32 =? 32) with true. cbn [negb]. f_equal.
  apply IH. intros z Hz. apply H. right; exact Hz.
Qed.
Definition list_cp : N -> bool := digits_and (u "[], ").
Lemma list_inert : inert list_cp = true.
Proof. vm_compute. reflexivity. Qed.
Lemma list_alpha l : (forall x, In x l -> Forall ascii_digit x) -> forallb list_cp (time_list l) = true.
Proof.
  intro H. unfold time_list. rewrite !forallb_app. change (forallb list_cp [91]) with true. change (forallb list_cp [93]) with true. rewrite andb_true_r. cbn [andb].
  induction l as [|x l IH]; [reflexivity|]. assert (Hx := digits_and_digit (u "[], ") x (H x (or_introl eq_refl))). destruct l as [|y l]; [exact Hx|].
  rewrite forallb_app. unfold list_cp at 1. rewrite Hx. cbn [app forallb]. change (list_cp 44) with true. change (list_cp 32) with true. cbn [andb].
  apply IH. intros z Hz. apply H. right; exact Hz.
Qed.
Lemma filter_alpha {A} (f p : A -> bool) l : forallb p l = true -> forallb p (filter f l) = true.
Proof. intro H. apply forallb_forall. intros x Hx. apply filter_In in Hx. rewrite forallb_forall in H. apply H, Hx. Qed.
Lemma sub_fun_keeps r f c s : avoids c r = true -> In c s -> In c (re_sub_fun r f s).
Proof.
  intro Ha. unfold re_sub_fun. generalize (@nil N). intro pre.
  apply (sub_go_ind r f (fun _ s o => In c s -> In c o)).
  - auto.
  - intros p x s' o IH [->|H]; [left; reflexivity|right; auto].
  - intros p w s' o st Hw _ _ Hd _ IH Hin. apply in_app_or in Hin. apply in_or_app.
    destruct Hin as [Hin|Hin]; [exfalso; eapply avoids_sound; eauto|right; apply IH, Hin].
Qed.
Lemma list_lower c : list_cp c = true -> lower_cp c = [c].
Proof.
  revert c. apply (digits_and_cases _ (fun c => lower_cp c = [c])).
  - apply lower_digit.
  - repeat (constructor; [vm_compute; reflexivity|]). constructor.
Qed.
Lemma list_tail ints l : (forall x, In x l -> Forall ascii_digit x) -> norm_circ ints (del_units (time_list l)) = NStr (tight l).
Proof.
  intro H. pose proof (list_alpha l H) as Ha. rewrite (inert_units list_cp list_inert _ Ha), (inert_circ list_cp list_inert _ Ha). f_equal.
  assert (Ho : forallb list_cp (tight l) = true) by (rewrite <- tight_replace, replace_filter by exact H; apply filter_alpha, Ha).
  rewrite (further_steps ints (time_list l) (time_list l) (time_list l) (time_list l) (tight l) (tight l)).
  - assert (str_is_int (tight l) = false) as ->; [|reflexivity]. unfold str_is_int, strip_commas.
    rewrite (bad_float 91); [reflexivity|bad|]. apply sub_fun_keeps; [vm_compute; reflexivity|left; reflexivity].
  - apply (foreign_starts list_cp); [reflexivity|exact Ha].
  - unfold norm_int. rewrite (bad_float 91); [reflexivity|bad|left; reflexivity].
  - rewrite (alpha_contains list_cp) by (reflexivity || exact Ha). reflexivity.
  - apply (alpha_sub list_cp); [vm_compute; reflexivity|exact Ha].
  - unfold inject_mixed. rewrite (alpha_sub list_cp mixed_re1), (alpha_sub list_cp mixed_re2) by ((vm_compute; reflexivity) || exact Ha). reflexivity.
  - apply tight_replace, H.
  - apply (lower_id list_cp); [exact list_lower|exact Ho].
Qed.
Lemma dec_N_digits n : Forall ascii_digit (dec_N n).
Proof. apply dec_N_spec. Qed.
Lemma num_tail ints n : n <= 2 ^ 53 -> norm_circ ints (del_units (dec_N n)) = NStr (ints (dec_N n)).
Proof.
  intro H. assert (E : dec_Z (Z.of_N n) = dec_N n) by (destruct n; reflexivity).
  pose proof (normalize_int ints (Z.of_N n) ltac:(change (2 ^ 53) with 9007199254740992 in H; lia)) as Hn. rewrite E in Hn.
  assert (Ha : forallb num_cp (dec_N n) = true) by (apply plain_num_digits, plain_digits, dec_N_digits).
  rewrite (inert_units num_cp num_inert _ Ha), (inert_circ num_cp num_inert _ Ha). rewrite <- Hn.
  symmetry. apply (inert_normalize num_cp num_inert _ Ha).
  - apply (alpha_contains num_cp); [reflexivity|exact Ha].
  - apply strip_sp_id. intro Hin. pose proof (dec_N_digits n) as F. rewrite Forall_forall in F. apply F in Hin. unfold ascii_digit in Hin. lia.
Qed.
(** The normal form of a clock time: the printed lists keep their space in a set of readings. *)
Definition clock_rest (M : pystr) (So : option pystr) : list N :=
  match So with
  | Some s => if num s =? 0 then if num M =? 0 then [] else [num M] else [num M; num s]
  | None => if num M =? 0 then [] else [num M]
  end.
Lemma num_small l : one_two l -> num l < 100.
Proof.
  intros [F L]. pose proof (dec_value_bound l F) as B. unfold num. eapply N.lt_le_trans; [exact B|]. destruct L as [-> | ->]; cbn; lia.
Qed.
Lemma clock_am ints H M So t : one_two H -> two M -> (forall s, So = Some s -> two s) -> time_tail false t ->
  string_normalize ints (clock H M So t) =
    NStr (match clock_rest M So with [] => ints (dec_N (num H)) | r => tight (map dec_N (num H :: r)) end).
Proof.
  intros HH HM HS Ht. rewrite (clock_ok H M So false t HH HM HS Ht), (clock_list H M So false t HH HM HS Ht).
  fold (clock_rest M So). unfold shown. destruct (clock_rest M So) as [|x r].
  - apply num_tail. pose proof (num_small H HH). eapply N.le_trans; [apply N.lt_le_incl; eassumption|]. discriminate.
  - apply list_tail. intros y Hy. apply in_map_iff in Hy. destruct Hy as (n & <- & _). apply dec_N_digits.
Qed.
Lemma clock_pm ints H M So t : one_two H -> two M -> (forall s, So = Some s -> two s) -> time_tail true t ->
  string_normalize ints (clock H M So t) =
    NSet (map (fun h => match clock_rest M So with [] => dec_N h | r => time_list (map dec_N (h :: r)) end)
            [num H mod 12; num H mod 12 + 12]).
Proof.
  intros HH HM HS Ht. rewrite (clock_ok H M So true t HH HM HS Ht), (clock_list H M So true t HH HM HS Ht).
  fold (clock_rest M So). unfold shown. destruct (clock_rest M So); reflexivity.
Qed.

(** ** Hours alone *)
Lemma hour_ok H pm k x : one_two H -> meridiem pm x -> forall ints,
  string_normalize ints (H ++ spaces k ++ x) =
    match str_to_time_list (H ++ spaces k ++ x) with NSet l => NSet l | NStr e => norm_circ ints (del_units e) end.
Proof.
  intros HH M ints. pose proof (one_two_cases H HH) as (a & Ha & HE).
  assert (D : forallb (digits_and []) H = true) by (apply digits_and_digit, HH).
  assert (I : forall c, digits_and [] c = true -> time_cp c = true /\ nobs c = true /\ c <> 32).
  { intros c. unfold digits_and, time_cp. destruct (is_ascii_digit c) eqn:Ed; [|discriminate].
    intros _. unfold digits_and. rewrite Ed. split; [reflexivity|]. apply ascii_digit_b in Ed. unfold ascii_digit in Ed. unfold nobs.
    destruct (N.eqb_spec c 92); [lia|]. split; [reflexivity|lia]. }
  destruct (tail_ok pm (spaces k ++ x) H (tail_mer pm k x M)) as (A1 & A2 & A3 & A4).
  - apply (forallb_impl _ _ _ (fun c h => proj1 (I c h)) D).
  - apply (forallb_impl _ _ _ (fun c h => proj1 (proj2 (I c h))) D).
  - destruct (rev H) as [|y r] eqn:Er; [exact Logic.I|]. rewrite forallb_forall in D. apply (I y). apply D. apply in_rev. rewrite Er. left; reflexivity.
  - assert (E : exists T', H ++ spaces k ++ x = a :: T') by (destruct HE as [-> |(b & _ & ->)]; eexists; reflexivity). destruct E as [T' E].
    eapply time_pre; eauto.
Qed.
Lemma hour_pm ints H k x : one_two H -> meridiem true x ->
  string_normalize ints (H ++ spaces k ++ x) = NSet [dec_N (num H mod 12); dec_N (num H mod 12 + 12)].
Proof.
  intros HH M. rewrite (hour_ok H true k x HH M). unfold str_to_time_list. destruct (time1_match H true k x HH M) as (st & E & G1 & G2).
  rewrite E, G2, (is_pm_spec true x M). unfold grp. rewrite G1, int_of_digits_dec by apply HH. reflexivity.
Qed.
Lemma further_digits ints ds : Forall ascii_digit ds -> ds <> [] -> dec_value ds <= 2 ^ 53 -> further ints ds = ints (dec_N (dec_value ds)).
Proof.
  intros F Hne Hv. destruct (float_of_nat false (dec_value ds) Hv) as (m & e & Ef & Er & Ei).
  assert (Hn : norm_int ds = dec_N (dec_value ds)).
  { unfold norm_int. rewrite (py_float_nat ds F Hne), Ef, Ei. change (u "e") with [101].
    rewrite contains_single_not. 2:{ intro Hin. rewrite Forall_forall in F. apply F in Hin. unfold ascii_digit in Hin. lia. }
    cbn [int_round]. rewrite Er. destruct (dec_value ds); reflexivity. }
  rewrite (further_plain ints ds (dec_N (dec_value ds))).
  - unfold str_is_int. rewrite strip_commas_plain by apply plain_num_digits, plain_digits, dec_N_digits.
    rewrite (py_float_nat _ (dec_N_digits _)) by apply dec_N_spec. destruct (dec_N_spec (dec_value ds)) as (_ & -> & _). rewrite Ef, Ei. reflexivity.
  - apply plain_digits, F.
  - exact Hn.
  - apply plain_digits, dec_N_digits.
Qed.
Lemma digits_tail ints ds : Forall ascii_digit ds -> ds <> [] -> dec_value ds <= 2 ^ 53 ->
  norm_circ ints (del_units ds) = NStr (ints (dec_N (dec_value ds))).
Proof.
  intros F Hne Hv. assert (Ha : forallb num_cp ds = true) by (apply plain_num_digits, plain_digits, F).
  rewrite (inert_units num_cp num_inert _ Ha), (inert_circ num_cp num_inert _ Ha). f_equal. apply further_digits; assumption.
Qed.
Lemma hour_am ints H k x : one_two H -> meridiem false x ->
  string_normalize ints (H ++ spaces k ++ x) = NStr (ints (dec_N (num H))).
Proof.
  intros HH M. rewrite (hour_ok H false k x HH M). unfold str_to_time_list. destruct (time1_match H false k x HH M) as (st & E & G1 & G2).
  rewrite E, G2, (is_pm_spec false x M). unfold grp. rewrite G1. apply digits_tail.
  - apply HH.
  - destruct HH as [_ [L|L]]; intros ->; discriminate.
  - pose proof (num_small H HH). eapply N.le_trans; [apply N.lt_le_incl; eassumption|]. discriminate.
Qed.
