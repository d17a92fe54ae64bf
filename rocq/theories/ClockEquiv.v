(** Clock times under [is_equiv]. *)
From Coq Require Import String List Arith NArith ZArith Bool Permutation Lia.
From Verif Require Import UnicodeTables PyStr PyStrTheory NumTheory Regex Float64 Normalize Monad MonadTheory Split SplitTheory Eval Spec EvalTheory EvalTheory2.
From Verif Require Import FloatTheory NormTheory NormNum NormPct RegexFirst NormMixed NormTime.
Import ListNotations.
Local Open Scope N_scope.
Local Arguments N.eqb : simpl never.

(** ** Comparing readings when no comparison raises *)
Section Total.
Variable W : World.
Definition returns {A} (m : M (St W) A) : Prop := forall st, exists a, fst (m st) = Ret a.
Lemma returns_ret {A} (a : A) : returns (ret a).
Proof. intro st. exists a. reflexivity. Qed.
Lemma returns_bind {A B} (m : M (St W) A) (f : A -> M (St W) B) : returns m -> (forall a, returns (f a)) -> returns (bind m f).
Proof.
  intros Hm Hf st. unfold bind. destruct (Hm st) as (a & Ha). destruct (m st) as [r st1]. cbn in Ha. subst r. apply Hf.
Qed.
Lemma returns_bare {A} (m h : M (St W) A) : returns h -> returns (try_bare m h).
Proof. intros Hh st. unfold try_bare. destruct (m st) as [[a|e] st1]; [exists a; reflexivity|apply Hh]. Qed.
Lemma bind_true {A} (m : M (St W) A) (f : A -> M (St W) bool) : returns m -> (forall a, pure_to (f a) true) -> pure_to (bind m f) true.
Proof.
  intros Hm Hf st. unfold bind. destruct (Hm st) as (a & Ha). destruct (m st) as [r st1]. cbn in Ha. subst r. apply Hf.
Qed.
Variable cmp : pystr -> pystr -> M (St W) bool.
Lemma any_given_true g l y : (forall y', In y' l -> returns (cmp g y')) -> In y l -> pure_to (cmp g y) true -> pure_to (any_given W cmp g l) true.
Proof.
  intros Ht Hy Hc. induction l as [|z l IH]; [contradiction|]. cbn [any_given]. destruct Hy as [->|Hy].
  - eapply pure_bind; [exact Hc|]. apply pure_ret.
  - apply bind_true; [apply Ht; left; reflexivity|]. intros []; [apply pure_ret|]. apply IH; [|exact Hy]. intros y' H'. apply Ht. right; exact H'.
Qed.
Lemma any_given_returns g l : (forall y', In y' l -> returns (cmp g y')) -> returns (any_given W cmp g l).
Proof.
  intro Ht. induction l as [|z l IH]; [apply returns_ret|]. cbn [any_given]. apply returns_bind; [apply Ht; left; reflexivity|].
  intros []; [apply returns_ret|]. apply IH. intros y' H'. apply Ht. right; exact H'.
Qed.
Lemma any_pair_true l1 l2 x y : (forall x' y', In x' l1 -> In y' l2 -> returns (cmp x' y')) -> In x l1 -> In y l2 ->
  pure_to (cmp x y) true -> pure_to (any_pair W cmp l1 l2) true.
Proof.
  intros Ht Hx Hy Hc. induction l1 as [|z l IH]; [contradiction|]. cbn [any_pair]. destruct Hx as [->|Hx].
  - eapply pure_bind; [apply (any_given_true x l2 y); auto; intros; apply Ht; [left; reflexivity|assumption]|]. apply pure_ret.
  - apply bind_true; [apply any_given_returns; intros; apply Ht; [left; reflexivity|assumption]|].
    intros []; [apply pure_ret|]. apply IH; [|exact Hx]. intros x' y' H' H''. apply Ht; [right|]; assumption.
Qed.
Lemma all_zip_true l : (forall x, In x l -> pure_to (cmp x x) true) -> pure_to (all_zip W cmp l l) true.
Proof.
  induction l as [|x l IH]; intro H; [apply pure_ret|]. cbn [all_zip]. eapply pure_bind; [apply H; left; reflexivity|].
  apply IH. intros; apply H; right; assumption.
Qed.
Lemma all_zip_returns l1 l2 : (forall x y, returns (cmp x y)) -> returns (all_zip W cmp l1 l2).
Proof.
  intro H. revert l2; induction l1 as [|x l1 IH]; intros [|y l2]; cbn [all_zip]; try apply returns_ret.
  apply returns_bind; [apply H|]. intros []; [apply IH|apply returns_ret].
Qed.

(** Two lists in square brackets. *)
Hypothesis Hiv : forall x y, returns (interval_compare W x y).
Lemma intervals_returns x y : returns (possible_intervals W x y).
Proof.
  unfold possible_intervals, str_to_interval. apply returns_bind; [apply returns_bare, returns_ret|]. intro a.
  apply returns_bind; [apply returns_bare, returns_ret|]. intro b.
  destruct a, b; try apply returns_ret. apply returns_bind; [apply Hiv|]. intro; apply returns_ret.
Qed.
Variables (gt gv : pystr) (l1 l2 : list pystr).
Hypothesis Hgt : split_tuple gt None = Ret (SSeq KList l1).
Hypothesis Hgv : split_tuple gv None = Ret (SSeq KList l2).
Hypothesis Mgt : str_is_mat gt = false.
Hypothesis Mgv : str_is_mat gv = false.
Hypothesis Ngv : gv <> [].
Lemma list_latex :
  returns (compare_elems W cmp (SSeq KList l1) (SSeq KList l2)) ->
  returns (is_latex_equiv W cmp gt gv).
Proof.
  intro H. unfold is_latex_equiv. destruct gv as [|c r] eqn:E; [contradiction|]. rewrite Mgt, Mgv. cbn [orb].
  apply returns_bind; [destruct (has_bracket gt); [apply intervals_returns|apply returns_ret]|]. intro p.
  apply returns_bind.
  - destruct (fst p); [apply returns_ret|]. unfold possible_tuple. rewrite Hgt, Hgv. intro st. unfold bind at 1, lift. cbn -[compare_elems].
    unfold bind. cbn -[compare_elems]. destruct (H st) as (b & Hb). destruct (compare_elems W cmp _ _ st) as [r0 st1]. cbn in Hb. subst. exists (b, true). reflexivity.
  - intro q. rewrite andb_false_r. apply returns_bind; [apply returns_ret|]. intro q'.
    destruct (_ && _); [|apply returns_ret]. unfold are_equal_under_sympy. apply returns_bare, returns_ret.
Qed.
Lemma list_latex_true : pure_to (compare_elems W cmp (SSeq KList l1) (SSeq KList l2)) true -> pure_to (is_latex_equiv W cmp gt gv) true.
Proof.
  intro H. unfold is_latex_equiv. destruct gv as [|c r] eqn:E; [contradiction|]. rewrite Mgt, Mgv. cbn [orb].
  apply bind_true; [destruct (has_bracket gt); [apply intervals_returns|apply returns_ret]|]. intro p.
  assert (X : exists b, pure_to (if fst p then ret p else possible_tuple W cmp gt (c :: r)) (true, b)).
  { destruct p as [[] b]; cbn [fst]; [exists b; apply pure_ret|]. exists true. unfold possible_tuple. rewrite Hgt, Hgv.
    eapply pure_bind; [intro st; reflexivity|]. eapply pure_bind; [intro st; reflexivity|]. eapply pure_bind; [exact H|apply pure_ret]. }
  destruct X as (b & X). eapply pure_bind; [exact X|]. cbn [fst negb andb]. eapply pure_bind; [apply pure_ret|]. cbn [fst negb andb]. apply pure_ret.
Qed.
End Total.

(** ** Splitting the printed list *)
Fixpoint no3 (s : pystr) : bool :=
  match s with
  | a :: ((b :: c :: _) as t) => negb (is_digit a && is_digit b && is_digit c) && no3 t
  | _ => true
  end.
Lemma no3_tail c s : no3 (c :: s) = true -> no3 s = true.
Proof. destruct s as [|a [|b s]]; try reflexivity. cbn [no3]. rewrite andb_true_iff. tauto. Qed.
Lemma no3_infix p a b c q : is_digit a = true -> is_digit b = true -> is_digit c = true -> no3 (p ++ a :: b :: c :: q) = false.
Proof.
  intros Ha Hb Hc. induction p as [|x p IH].
  { change (negb (is_digit a && is_digit b && is_digit c) && no3 (b :: c :: q) = false). rewrite Ha, Hb, Hc. reflexivity. }
  destruct (no3 ((x :: p) ++ _)) eqn:E; [|reflexivity]. apply no3_tail in E. rewrite <- IH. symmetry. exact E.
Qed.
Lemma no3_thousands s : no3 s = true -> ~ has_thousands s.
Proof.
  intros H (a & d1 & sep & d2 & d3 & d4 & b & -> & _ & F). apply Forall_inv_tail in F.
  replace (a ++ d1 :: 44 :: sep ++ [d2; d3; d4] ++ b) with ((a ++ d1 :: 44 :: sep) ++ d2 :: d3 :: d4 :: b) in H by (rewrite <- app_assoc; reflexivity).
  rewrite no3_infix in H; [discriminate| | |]; rewrite Forall_forall in F; apply F; cbn; tauto.
Qed.
Lemma no3_sep x c s : (length x <= 2)%nat -> is_digit c = false -> no3 s = true -> no3 (x ++ c :: s) = true.
Proof.
  intros Hl Hc Hs. assert (X : forall s, no3 s = true -> no3 (c :: s) = true).
  { intros [|a [|b t]] Ht; try reflexivity. change (negb (is_digit c && is_digit a && is_digit b) && no3 (a :: b :: t) = true). rewrite Hc, Ht. reflexivity. }
  destruct x as [|a [|b [|? x]]]; [|..|cbn in Hl; lia].
  - apply X, Hs.
  - cbn [app]. destruct s as [|d s]; [reflexivity|]. change (negb (is_digit a && is_digit c && is_digit d) && no3 (c :: d :: s) = true).
    rewrite (X _ Hs), Hc, andb_false_r. reflexivity.
  - cbn [app]. change (negb (is_digit a && is_digit b && is_digit c) && no3 (b :: c :: s) = true). rewrite Hc, andb_false_r. cbn [negb andb].
    destruct s as [|d s]; [reflexivity|]. change (negb (is_digit b && is_digit c && is_digit d) && no3 (c :: d :: s) = true).
    rewrite (X _ Hs), Hc, andb_false_r. reflexivity.
Qed.

Definition short (x : pystr) : Prop := one_two x.
Definition padded (x y : pystr) : Prop := y = x \/ y = 32 :: x.
Lemma padded_chars x y : short x -> padded x y -> Forall (fun c => ascii_digit c \/ c = 32) y.
Proof.
  intros [F _] Hp. assert (Forall (fun c => ascii_digit c \/ c = 32) x) by (eapply Forall_impl; [|exact F]; cbn; auto).
  destruct Hp as [-> | ->]; [assumption|constructor; auto].
Qed.
Lemma chars_balance y : Forall (fun c => ascii_digit c \/ c = 32) y -> balance y = 0%Z.
Proof.
  induction 1 as [|c y Hc _ IH]; [reflexivity|]. rewrite balance_cons, IH.
  assert (E : existsb (N.eqb c) (u "([{") = false /\ existsb (N.eqb c) (u ")]}") = false).
  { cbn. split; repeat match goal with |- context [N.eqb c ?x] => destruct (N.eqb_spec c x); [unfold ascii_digit in Hc; lia|] end; reflexivity. }
  destruct E as [E1 E2]. cbn [balance]. rewrite E1, E2. reflexivity.
Qed.
Lemma chars_nested y : Forall (fun c => ascii_digit c \/ c = 32) y -> well_nested y.
Proof.
  intro F. split; [apply chars_balance, F|]. intros p q ->. apply Forall_app in F. rewrite chars_balance by apply F. lia.
Qed.
Lemma short_strip x y : short x -> padded x y -> strip y = x.
Proof.
  intros [F L] Hp. assert (E : strip x = x).
  { assert (B : forall c, In c x -> is_space c = false).
    { intros c Hc. rewrite Forall_forall in F. apply digit_not_space, F, Hc. }
    apply strip_by_id.
    - destruct x as [|c x]; [exact I|apply B; left; reflexivity].
    - destruct (rev x) as [|c r] eqn:Er; [exact I|]. apply B. apply in_rev. rewrite Er. left; reflexivity. }
  destruct Hp as [-> | ->]; [exact E|]. rewrite <- E at 2. unfold strip.
  pose proof (strip_by_pad is_space [32] [] x eq_refl eq_refl) as P. rewrite app_nil_r in P. exact P.
Qed.

Lemma padded_no3 x y c s : short x -> padded x y -> is_digit c = false -> no3 s = true -> no3 (y ++ c :: s) = true.
Proof.
  intros [_ L] Hp Hc Hs. assert (no3 (x ++ c :: s) = true) by (apply no3_sep; [lia|assumption|assumption]).
  destruct Hp as [-> | ->]; [assumption|]. apply (no3_sep [] 32); [cbn; lia|reflexivity|assumption].
Qed.
Lemma join_no3 xs ys : Forall short xs -> Forall2 padded xs ys -> no3 (join [44] ys ++ [93]) = true.
Proof.
  intros F H. induction H as [|x y xs ys Hp H IH]; [reflexivity|]. inversion_clear F as [|? ? Hx F']. specialize (IH F').
  destruct ys as [|z ys]; [apply (padded_no3 x y 93 []); (assumption || reflexivity)|].
  change (join [44] (y :: z :: ys)) with (y ++ 44 :: join [44] (z :: ys)). rewrite <- app_assoc. cbn [app].
  apply (padded_no3 x y 44); (assumption || reflexivity).
Qed.
Lemma split_time xs ys : (2 <= length xs)%nat -> Forall short xs -> Forall2 padded xs ys ->
  split_tuple (wrap KList (join [44] ys)) None = Ret (SSeq KList xs).
Proof.
  intros L F H. assert (C : Forall (fun y => Forall (fun c => ascii_digit c \/ c = 32) y /\ y <> []) ys).
  { clear L. induction H as [|x y xs ys Hp H IH]; [constructor|]. inversion_clear F as [|? ? Hx F']. constructor; [|auto]. split; [apply (padded_chars x y Hx Hp)|].
    destruct Hp as [-> | ->]; [destruct Hx as [_ [L|L]]; intros ->; discriminate|discriminate]. }
  assert (S : map strip ys = xs).
  { clear L C. induction H as [|x y xs ys Hp H IH]; [reflexivity|]. inversion_clear F as [|? ? Hx F']. cbn [map]. rewrite (short_strip x y Hx Hp), IH by assumption. reflexivity. }
  rewrite <- S. apply (split_tuple_wrapped KList None ys).
  - rewrite <- (Forall2_length _ _ _ H). exact L.
  - rewrite Forall_forall in *. intros y Hy. apply chars_nested, C, Hy.
  - intros y Hy (p & q & -> & _). rewrite Forall_forall in C. apply C in Hy. destruct Hy as [Hy _]. apply Forall_app in Hy. destruct Hy as [_ Hy].
    apply Forall_inv in Hy. unfold ascii_digit in Hy. lia.
  - rewrite Forall_forall in C. apply C. destruct ys as [|y ys] using rev_ind; [cbn in S; subst xs; cbn in L; lia|].
    rewrite last_last. apply in_or_app. right. left. reflexivity.
  - apply no3_thousands. apply (no3_sep [] 91); [cbn; lia|reflexivity|]. exact (join_no3 xs ys F H).
Qed.

Lemma short_dec n : n < 100 -> short (dec_N n).
Proof.
  intro H. split; [apply dec_N_digits|]. destruct (N.eq_dec n 0) as [->|H0]; [left; reflexivity|].
  destruct (dec_N_spec n) as (F & V & _). 
  assert (G : forall k, (k < 100)%nat -> length (dec_N (N.of_nat k)) = 1%nat \/ length (dec_N (N.of_nat k)) = 2%nat).
  { assert (X : forallb (fun k => (length (dec_N (N.of_nat k)) =? 1)%nat || (length (dec_N (N.of_nat k)) =? 2)%nat) (seq 0 100) = true) by (vm_compute; reflexivity).
    rewrite forallb_forall in X. intros k Hk. specialize (X k ltac:(apply in_seq; lia)). apply orb_true_iff in X. rewrite !Nat.eqb_eq in X. exact X. }
  specialize (G (N.to_nat n) ltac:(lia)). rewrite N2Nat.id in G. exact G.
Qed.
Lemma time_list_wrap x xs : exists ys, Forall2 padded (x :: xs) ys /\ time_list (x :: xs) = wrap KList (join [44] ys).
Proof.
  exists (x :: map (fun y => 32 :: y) xs). split.
  - constructor; [left; reflexivity|]. induction xs as [|y xs IH]; constructor; [right; reflexivity|exact IH].
  - unfold time_list, wrap. cbn [pair_of fst snd app]. f_equal. f_equal. revert x. induction xs as [|y xs IH]; intro x; [reflexivity|].
    cbn [map join]. f_equal. cbn [app]. f_equal. specialize (IH y). destruct xs as [|z xs]; [reflexivity|]. cbn [map join app] in *. f_equal. exact IH.
Qed.
Lemma tight_wrap xs : exists ys, Forall2 padded xs ys /\ tight xs = wrap KList (join [44] ys).
Proof.
  exists xs. split; [induction xs; constructor; [left; reflexivity|assumption]|].
  unfold tight, wrap. cbn [pair_of fst snd app]. f_equal. f_equal.
  induction xs as [|x xs IH]; [reflexivity|]. destruct xs as [|y xs]; [reflexivity|]. cbn [join]. f_equal. cbn [app]. f_equal. exact IH.
Qed.
Lemma digits_not_mat xs ys : Forall short xs -> Forall2 padded xs ys -> str_is_mat (wrap KList (join [44] ys)) = false.
Proof.
  intros F H. unfold str_is_mat. apply (alpha_contains list_cp); [reflexivity|]. unfold wrap. cbn [pair_of fst snd forallb]. rewrite forallb_app.
  change (list_cp 91) with true. change (forallb list_cp [93]) with true. rewrite andb_true_r. cbn [andb].
  induction H as [|x y xs ys Hp H IH]; [reflexivity|]. inversion_clear F as [|? ? Hx F']. specialize (IH F').
  assert (Y : forallb list_cp y = true).
  { apply forallb_forall. intros c Hc. pose proof (padded_chars x y Hx Hp) as C. rewrite Forall_forall in C. apply C in Hc. destruct Hc as [Hc| ->]; [|reflexivity].
    unfold list_cp, digits_and. apply ascii_digit_b in Hc. rewrite Hc. reflexivity. }
  destruct ys as [|z ys]; [exact Y|]. change (join [44] (y :: z :: ys)) with (y ++ 44 :: join [44] (z :: ys)).
  rewrite forallb_app, Y. cbn [forallb andb]. exact IH.
Qed.

(** ** The conflation *)
Lemma rec_returns W n : (forall x y, returns W (interval_compare W x y)) -> forall x y, returns W (is_equiv_str W (S n) x y).
Proof.
  intros H x y st. apply (is_equiv_total W n (Some x) (Some y) st). intros a b st' e He. destruct (H a b st') as (v & Hv). congruence.
Qed.
Lemma rec_refl W n x : pure_to (is_equiv_str W (S n) x x) true.
Proof.
  intro st. assert (E : equal_up_to_padding is_space x x).
  { exists x, [], [], [], []. rewrite app_nil_r. cbn. auto. }
  pose proof (is_equiv_refl W n x x E st) as H. cbn [is_equiv] in H. rewrite H. reflexivity.
Qed.
Section Readings.
Variables (W : World) (n : nat).
Hypothesis Hiv : forall x y, returns W (interval_compare W x y).
Variables (gt gv : pystr) (l1 l2 y1 y2 : list pystr).
Hypothesis L1 : (2 <= length l1)%nat.
Hypothesis L2 : (2 <= length l2)%nat.
Hypothesis F1 : Forall short l1.
Hypothesis F2 : Forall short l2.
Hypothesis P1 : Forall2 padded l1 y1.
Hypothesis P2 : Forall2 padded l2 y2.
Hypothesis E1 : gt = wrap KList (join [44] y1).
Hypothesis E2 : gv = wrap KList (join [44] y2).
Lemma lists_return : returns W (is_latex_equiv W (is_equiv_str W (S n)) gt gv).
Proof.
  apply (list_latex W _ Hiv gt gv l1 l2).
  - rewrite E1. apply split_time; assumption.
  - rewrite E2. apply split_time; assumption.
  - rewrite E1. apply (digits_not_mat l1 y1); assumption.
  - rewrite E2. apply (digits_not_mat l2 y2); assumption.
  - rewrite E2. discriminate.
  - unfold compare_elems. destruct (_ && _); [apply returns_ret|]. cbn [kind_eqb negb]. apply all_zip_returns, rec_returns, Hiv.
Qed.
Lemma lists_true : l1 = l2 -> pure_to (is_latex_equiv W (is_equiv_str W (S n)) gt gv) true.
Proof.
  intro El. apply (list_latex_true W _ Hiv gt gv l1 l2).
  - rewrite E1. apply split_time; assumption.
  - rewrite E2. apply split_time; assumption.
  - rewrite E1. apply (digits_not_mat l1 y1); assumption.
  - rewrite E2. apply (digits_not_mat l2 y2); assumption.
  - rewrite E2. discriminate.
  - subst l2. unfold compare_elems. rewrite Nat.eqb_refl. cbn [negb andb kind_eqb]. apply all_zip_true. intros; apply rec_refl.
Qed.
End Readings.

Section Conflation.
Variables (W : World) (n : nat) (H M : pystr) (So : option pystr) (t1 t2 : pystr).
Hypothesis Hiv : forall x y, returns W (interval_compare W x y).
Hypothesis HH : one_two H.
Hypothesis HM : two M.
Hypothesis HS : forall s, So = Some s -> two s.
Hypothesis Hrest : clock_rest M So <> [].
Hypothesis Hh : num H < 12.
Hypothesis Ht1 : time_tail true t1.
Hypothesis Ht2 : time_tail false t2.
Lemma rest_short : Forall (fun k => k < 100) (clock_rest M So).
Proof.
  assert (A : num M < 100) by (apply num_small; split; [apply HM|right; apply HM]). unfold clock_rest.
  destruct So as [s|]; [|destruct (num M =? 0); auto]. assert (B : num s < 100) by (apply num_small; destruct (HS s eq_refl) as [F L]; split; [exact F|right; exact L]).
  destruct (num s =? 0); [destruct (num M =? 0); auto|auto].
Qed.
Lemma reading_ok h : h < 100 -> (2 <= length (map dec_N (h :: clock_rest M So)))%nat /\ Forall short (map dec_N (h :: clock_rest M So)).
Proof.
  intro Hl. split; [rewrite map_length; cbn [length]; destruct (clock_rest M So); [contradiction|cbn; lia]|].
  apply Forall_map. constructor; [apply short_dec, Hl|]. eapply Forall_impl; [|apply rest_short]. intros; apply short_dec; assumption.
Qed.
Lemma pm_am st : fst (is_equiv W (S (S n)) (Some (clock H M So t1)) (Some (clock H M So t2)) st) = Ret true.
Proof.
  cbn [is_equiv]. change (is_equiv_str W (S (S n))) with (is_equiv_body W (is_equiv_str W (S n))). unfold is_equiv_body.
  destruct (str_eqb _ _); [reflexivity|]. rewrite (clock_pm _ H M So t1 HH HM HS Ht1), (clock_am _ H M So t2 HH HM HS Ht2).
  cbv zeta. unfold compare_norm. apply pure_try_except. pose proof (reading_ok) as R. revert R.
  destruct (clock_rest M So) as [|x r] eqn:Er; [contradiction|]. intro R.
  rewrite N.mod_small by exact Hh. set (A := NSet _).
  apply (any_pair_true W _ (readings W A) _ (time_list (map dec_N (num H :: x :: r))) (tight (map dec_N (num H :: x :: r)))).
  - intros a b Ha Hb. apply readings_spec in Ha. cbn in Hb. destruct Hb as [<-|[]].
    assert (exists h, h < 100 /\ a = time_list (map dec_N (h :: x :: r))) as (h & Hl & ->).
    { unfold A in Ha. cbn -[time_list dec_N N.add] in Ha. destruct Ha as [<-|[<-|[]]]; eexists; (split; [|reflexivity]); lia. }
    destruct (time_list_wrap (dec_N h) (map dec_N (x :: r))) as (y1 & Q1 & W1). destruct (tight_wrap (map dec_N (num H :: x :: r))) as (y2 & Q2 & W2).
    eapply (lists_return W n Hiv); [apply (R h Hl)|apply (R (num H)); lia|apply (R h Hl)|apply (R (num H)); lia|exact Q1|exact Q2|exact W1|exact W2].
  - apply readings_spec. left. reflexivity.
  - left. reflexivity.
  - destruct (time_list_wrap (dec_N (num H)) (map dec_N (x :: r))) as (y1 & Q1 & W1). destruct (tight_wrap (map dec_N (num H :: x :: r))) as (y2 & Q2 & W2).
    eapply (lists_true W n Hiv); [apply (R (num H)); lia|apply (R (num H)); lia|apply (R (num H)); lia|apply (R (num H)); lia|exact Q1|exact Q2|exact W1|exact W2|reflexivity].
Qed.
Lemma am_pm_equiv st : fst (is_equiv W (S (S n)) (Some (clock H M So t2)) (Some (clock H M So t1)) st) = Ret true.
Proof.
  cbn [is_equiv]. change (is_equiv_str W (S (S n))) with (is_equiv_body W (is_equiv_str W (S n))). unfold is_equiv_body.
  destruct (str_eqb _ _); [reflexivity|]. rewrite (clock_pm _ H M So t1 HH HM HS Ht1), (clock_am _ H M So t2 HH HM HS Ht2).
  cbv zeta. unfold compare_norm. apply pure_try_except. pose proof (reading_ok) as R. revert R.
  destruct (clock_rest M So) as [|x r] eqn:Er; [contradiction|]. intro R.
  rewrite N.mod_small by exact Hh. set (A := NSet _).
  apply (any_pair_true W _ _ (readings W A) (tight (map dec_N (num H :: x :: r))) (time_list (map dec_N (num H :: x :: r)))).
  - intros b a Hb Ha. apply readings_spec in Ha. cbn in Hb. destruct Hb as [<-|[]].
    assert (exists h, h < 100 /\ a = time_list (map dec_N (h :: x :: r))) as (h & Hl & ->).
    { unfold A in Ha. cbn -[time_list dec_N N.add] in Ha. destruct Ha as [<-|[<-|[]]]; eexists; (split; [|reflexivity]); lia. }
    destruct (time_list_wrap (dec_N h) (map dec_N (x :: r))) as (y1 & Q1 & W1). destruct (tight_wrap (map dec_N (num H :: x :: r))) as (y2 & Q2 & W2).
    eapply (lists_return W n Hiv); [apply (R (num H)); lia|apply (R h Hl)|apply (R (num H)); lia|apply (R h Hl)|exact Q2|exact Q1|exact W2|exact W1].
  - left. reflexivity.
  - apply readings_spec. left. reflexivity.
  - destruct (time_list_wrap (dec_N (num H)) (map dec_N (x :: r))) as (y1 & Q1 & W1). destruct (tight_wrap (map dec_N (num H :: x :: r))) as (y2 & Q2 & W2).
    eapply (lists_true W n Hiv); [apply (R (num H)); lia|apply (R (num H)); lia|apply (R (num H)); lia|apply (R (num H)); lia|exact Q2|exact Q1|exact W2|exact W1|reflexivity].
Qed.
End Conflation.
