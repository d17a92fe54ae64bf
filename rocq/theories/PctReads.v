(** The texts of floats of moderate size are plain decimals; hence the readings of a percentage, of a numeral in another base and of an afternoon hour. *)
From Coq Require Import String List NArith ZArith QArith Qabs Bool Lia Lqa Arith Permutation.
From Verif Require Import PyStr PyStrTheory Spec Monad MonadTheory Split Interval IntervalEval Grammar L2S L2STheory L2SState L2SValue Eval EvalTheory EvalTheory2 NumTheory RegexTheory Normalize NormTheory NormNum NormTime NormPct NormMixed NormSci FloatTheory Float64 FloatError FloatRound FloatRepr DecNorm AnswerNum Arith ArithParse LatexForm Answer Parser ParserTheory ParserNum ParserMore Pipeline Readings.
Import ListNotations.
Local Close Scope Q_scope.
Local Open Scope N_scope.

Lemma dec_near neg D t m e : D <> 0 -> m <> 0 -> float_of_dec neg D t = FFin neg m e -> (Qabs (fval m e - dv D t) <= dv D t * two (- 53) + two (- 1075))%Q.
Proof.
  intros HD Hm H. rewrite float_of_dec_form in H by exact HD. destruct (310 <? _)%Z; [discriminate H|]. destruct (_ <? -330)%Z; [injection H as <- _; contradiction|].
  unfold mk_float in H. destruct (round_ratio (dec_num D t) (dec_den t)) as [[m' e']|] eqn:R; [|discriminate H]. injection H as -> ->.
  pose proof (round_error _ _ (dec_den_pos t) m e R) as Q. rewrite dec_ratio in Q. exact Q.
Qed.
Lemma tiny : (two (- 1075) <= 1 # 100000000000000000000000000)%Q.
Proof. vm_compute. discriminate. Qed.
Lemma two53 x : (x * two (- 53) == x * (1 # 9007199254740992))%Q.
Proof. reflexivity. Qed.

(** ** Floats of moderate size are printed as plain decimals *)
Lemma repr_dotted m e : double m e -> (1 # 6000 <= fval m e)%Q -> (fval m e < qn (10 ^ 15))%Q -> exists ds fs, numeral ds /\ numeral fs /\ repr_fin m e = ds ++ 46 :: fs.
Proof.
  intros H Lo Hi. unfold repr_fin. destruct (N.eqb_spec m 0) as [G|M0]; [unfold double in H; lia|].
  destruct (ratio_of m e) as [a b] eqn:R. set (d0 := decpt_of a b).
  destruct (shortest_finds 18 m e a b d0 17 1 (seventeen m e a b H R)) as (D & j & -> & _ & RB); [lia|]. set (t := (d0 - j)%Z) in *. clearbody t. clear d0 j R a b.
  destruct (reads_back D t m e H RB) as [D0 Rd]. destruct (strip_zeros_spec (dec_N D)) as [z Ez]. destruct (dec_N_spec D) as (F & V & _).
  destruct (dec_N_first D D0) as (c & s & Ec & C48). pose proof (places_spec D t D0) as [P1 P2]. pose proof (dec_near false D t m e D0 M0 (Rd false)) as Nr. unfold FloatRepr.places in P1, P2.
  set (full := dec_N D) in *. set (ds := strip_zeros full) in *. clearbody full ds. set (p := (Z.of_nat (length full) + t)%Z) in *.
  assert (Pp : (-4 < p <= 16)%Z).
  { rewrite two53 in Nr. pose proof tiny as T. set (w := two (- 1075)) in *. clearbody w. set (f := fval m e) in *. clearbody f. set (d := dv D t) in *. clearbody d. apply abs_le in Nr. destruct Nr as [N1 N2].
    change (qn (10 ^ 15)) with (1000000000000000 # 1)%Q in Hi. split.
    - destruct (Z_lt_ge_dec (-4) p) as [|G]; [assumption|exfalso]. pose proof (ten_le p (-4) ltac:(lia)) as L. change (ten (-4)) with (1 # 10000)%Q in L. lra.
    - destruct (Z_le_gt_dec p 16) as [|G]; [assumption|exfalso]. pose proof (ten_le 16 (p - 1) ltac:(lia)) as L. change (ten 16) with (10000000000000000 # 1)%Q in L. lra. }
  assert (Nd : ds <> []). { intros ->. cbn [app] in Ez. rewrite Ec in Ez. destruct z; [discriminate|]. cbn in Ez. congruence. }
  assert (Fd : Forall ascii_digit ds) by (rewrite Ez in F; apply Forall_app in F; apply F).
  destruct (Z.leb_spec p (-4)) as [|_]; [lia|]. destruct (Z.ltb_spec 16 p) as [|_]; [lia|]. cbn [orb]. clear - Fd Nd.
  destruct (Z.leb_spec p 0) as [P0|P0]; [|destruct (Z.leb_spec (Z.of_nat (length ds)) p) as [Pk|Pk]].
  - exists [48], (zeros (Z.to_nat (- p)) ++ ds). split; [split; [exact (zeros_digits 1)|discriminate]|]. split; [|reflexivity].
    split; [apply Forall_app; split; [apply zeros_digits|exact Fd]|]. intro E. apply app_eq_nil in E. apply Nd, E.
  - exists (ds ++ zeros (Z.to_nat (p - Z.of_nat (length ds)))), [48]. split; [|split; [split; [exact (zeros_digits 1)|discriminate]|rewrite <- app_assoc; reflexivity]].
    split; [apply Forall_app; split; [exact Fd|apply zeros_digits]|]. intro E. apply app_eq_nil in E. apply Nd, E.
  - exists (firstn (Z.to_nat p) ds), (skipn (Z.to_nat p) ds). pose proof (firstn_skipn (Z.to_nat p) ds) as E. rewrite <- E in Fd. apply Forall_app in Fd. destruct Fd as [F1 F2].
    split; [split; [exact F1|]|split; [split; [exact F2|]|reflexivity]]; intro G; apply (f_equal (@length N)) in G; [rewrite firstn_length in G|rewrite skipn_length in G]; cbn [length] in G; lia.
Qed.
(** ... and the decimal printed is within half a unit in the last place *)
Lemma repr_near m e : double m e -> (1 # 6000 <= fval m e)%Q -> (fval m e < qn (10 ^ 15))%Q ->
  exists ds fs, numeral ds /\ numeral fs /\ repr_fin m e = ds ++ 46 :: fs /\ (Qabs (fval m e - magnitude ds fs) <= magnitude ds fs * two (- 53) + two (- 1075))%Q.
Proof.
  intros H Lo Hi. destruct (repr_dotted m e H Lo Hi) as (ds & fs & F & G & E). exists ds, fs. split; [exact F|]. split; [exact G|]. split; [exact E|].
  pose proof (repr_read false m e H) as R. rewrite E in R. pose proof (py_float_dec false ds fs F G) as P. unfold dec_text in P. rewrite R in P. injection P as P.
  assert (M0 : m <> 0) by (unfold double in H; lia).
  assert (D0 : dec_value (ds ++ fs) <> 0). { intro Z. rewrite Z in P. cbn in P. injection P as -> _. contradiction. }
  pose proof (dec_near false _ _ m e D0 M0 (eq_sym P)) as Q.
  assert (X : (dv (dec_value (ds ++ fs)) (- Z.of_N (N.of_nat (length fs))) == magnitude ds fs)%Q).
  { unfold dv, magnitude, decq. unfold Qdiv. rewrite ten_nat. f_equiv. pose proof (ten_opp (Z.of_N (N.of_nat (length fs)))) as T. pose proof (ten_gt0 (Z.of_N (N.of_nat (length fs)))) as T0.
    set (x := ten (Z.of_N _)) in *. set (y := ten (- _)) in *. clearbody x y. assert (y == x * y * / x)%Q as -> by (field; lra). rewrite T. ring. }
  rewrite X in Q. exact Q.
Qed.

(** ** Percentages *)
Definition close_to (x y : Q) : Prop := (Qabs (x - y) <= slack y)%Q.
Lemma slack50 x : (slack x == x * (1 # 1125899906842624))%Q.
Proof. reflexivity. Qed.
Lemma pct_strip x s : marked x s -> forallb num_cp x = true -> strip s = s.
Proof.
  intros M H. assert (G : forall c, In c s -> is_space c = false).
  { intros c Hc. destruct (marked_in x s c M Hc) as [I|[-> | ->]]; [|reflexivity|reflexivity]. rewrite forallb_forall in H. apply plain_no_space, H, I. }
  unfold strip. apply strip_by_id.
  - destruct s as [|c s']; [exact I|]. apply G. left; reflexivity.
  - destruct (rev s) as [|c t] eqn:E; [exact I|]. apply G. apply in_rev. rewrite E. left; reflexivity.
Qed.
Lemma dec_expr_ok neg ds fs : numeral ds -> numeral fs -> wf (dec_expr neg ds fs) /\ LatexForm.plain (dec_expr neg ds fs).
Proof. intros F G. destruct neg; cbn; repeat split; try apply F; try apply G. Qed.
Section Percent.
Variable ints : pystr -> pystr.
Variables (neg : bool) (x s : pystr) (q : Q) (m : N) (e : Z).
Hypothesis Hx : forallb num_cp x = true.
Hypothesis Hm : marked x s.
Hypothesis Hp : In 37 s.
Hypothesis Lo : (1 # 50 <= q)%Q.
Hypothesis Hi : (q < qn (10 ^ 14))%Q.
Hypothesis Hd : m = 0 \/ double m e.
Hypothesis Hf : py_float x = Some (FFin neg m e).
Hypothesis He : (Qabs (fval m e - q) <= q * two (- 53) + two (- 1075))%Q.
Lemma pct_reads : exists d1 f1 d2 f2, numeral d1 /\ numeral f1 /\ numeral d2 /\ numeral f2 /\
  reads ints s [dec_expr neg d1 f1; dec_expr neg d2 f2] /\ close_to (magnitude d1 f1) (q / 100) /\ close_to (magnitude d2 f2) q.
Proof.
  change (qn (10 ^ 14)) with (100000000000000 # 1)%Q in Hi.
  pose proof tiny as T. rewrite two53 in He. apply abs_le in He.
  assert (Dm : double m e). { destruct Hd as [M0|D]; [exfalso|exact D]. revert He. rewrite M0. unfold fval. change (qn 0) with 0%Q. rewrite Qmult_0_l. intros [_ B]. lra. }
  assert (B : (fval m e < two 1024)%Q). { eapply Qlt_trans with (y := (1000000000000000 # 1)%Q); [lra|vm_compute; reflexivity]. }
  destruct (div100_error neg m e B) as (m' & e' & E' & N'). rewrite two53 in N'. apply abs_le in N'.
  assert (Q100 : (fval m e / 100 == fval m e * (1 # 100))%Q) by reflexivity. rewrite Q100 in N'.
  assert (Dm' : double m' e').
  { cbn [div100] in E'. destruct (ratio_of m e) as [a b] eqn:R. destruct (ratio_value m e a b R) as [B0 _]. unfold mk_float in E'.
    destruct (round_ratio a (b * 100)) as [[m1 e1]|] eqn:Rr; [|discriminate]. injection E' as -> ->.
    assert (M1 : m' <> 0). { intro M0. revert N'. rewrite M0. assert (Z0 : (fval 0 e' == 0)%Q) by (unfold fval; change (qn 0) with 0%Q; ring). rewrite Z0. intros [_ B1]. clear - B1 He T Lo. lra. }
    assert (A0 : a <> 0). { intros ->. cbn in Rr. injection Rr as <- _. congruence. }
    destruct (round_double a (b * 100) ltac:(lia) A0 m' e' Rr) as [[M0 _]|D]; [contradiction|exact D]. }
  destruct (repr_near m' e' Dm') as (d1 & f1 & F1 & G1 & T1 & X1); [lra|change (qn (10 ^ 15)) with (1000000000000000 # 1)%Q; lra|].
  destruct (repr_near m e Dm) as (d2 & f2 & F2 & G2 & T2 & X2); [lra|change (qn (10 ^ 15)) with (1000000000000000 # 1)%Q; lra|].
  rewrite two53 in X1, X2. apply abs_le in X1, X2.
  exists d1, f1, d2, f2. repeat (split; [assumption|]). split; [|split; unfold close_to; rewrite slack50; apply abs_le].
  - split; [exact (pct_strip x s Hm Hx)|]. split; [discriminate|]. split; [constructor; [|constructor; [|constructor]]; apply dec_expr_ok; assumption|].
    intro y. rewrite (normalize_pct ints x s _ Hm Hp Hf), E'. cbn [reading_of map]. rewrite !dec_expr_text. unfold dec_text. cbn [float_str]. rewrite T1, T2. reflexivity.
  - assert (Qq : (q / 100 == q * (1 # 100))%Q) by reflexivity. rewrite Qq. set (w := two (- 1075)) in *. clearbody w. set (fm := fval m e) in *. set (fm' := fval m' e') in *. clearbody fm fm'.
    set (g := magnitude d1 f1) in *. clearbody g. clear X2. split; lra.
  - set (w := two (- 1075)) in *. clearbody w. set (fm := fval m e) in *. clearbody fm. set (g := magnitude d2 f2) in *. clearbody g. clear X1 N'. split; lra.
Qed.
End Percent.

Lemma decimal_pct ints neg ds fs s : numeral ds -> numeral fs -> marked (dec_text neg ds fs) s -> In 37 s -> (1 # 50 <= magnitude ds fs)%Q -> (magnitude ds fs < qn (10 ^ 14))%Q ->
  exists d1 f1 d2 f2, numeral d1 /\ numeral f1 /\ numeral d2 /\ numeral f2 /\
    reads ints s [dec_expr neg d1 f1; dec_expr neg d2 f2] /\ close_to (magnitude d1 f1) (magnitude ds fs / 100) /\ close_to (magnitude d2 f2) (magnitude ds fs).
Proof.
  intros F G M Hp Lo Hi. pose proof (digits_length fs G) as K.
  assert (B : (decq (dec_value (ds ++ fs)) (N.of_nat (length fs)) < qn (10 ^ 300))%Q) by (eapply Qlt_le_trans; [exact Hi|vm_compute; discriminate]).
  destruct (dec_error neg _ _ K B) as (m & e & E & R). fold (magnitude ds fs) in R.
  pose proof (py_float_dec neg ds fs F G) as P. rewrite E in P.
  eapply (pct_reads ints neg (dec_text neg ds fs) s (magnitude ds fs) m e); try assumption; [apply plain_num_digits, dec_text_plain; assumption|].
  destruct (N.eq_dec m 0) as [|M0]; [left; assumption|right].
  assert (D0 : dec_value (ds ++ fs) <> 0). { intro Z. rewrite Z in E. cbn in E. injection E as <- _. contradiction. }
  rewrite float_of_dec_form in E by exact D0. destruct (310 <? _)%Z; [discriminate E|]. destruct (_ <? -330)%Z; [injection E as <- _; contradiction|].
  unfold mk_float in E. destruct (round_ratio _ _) as [[m' e']|] eqn:Rr; [|discriminate E]. injection E as -> ->.
  assert (A0 : dec_num (dec_value (ds ++ fs)) (- Z.of_N (N.of_nat (length fs))) <> 0) by (intro A0; rewrite A0 in Rr; cbn in Rr; injection Rr as <- _; contradiction).
  destruct (round_double _ _ (dec_den_pos _) A0 m e Rr) as [[Z _]|D]; [contradiction|exact D].
Qed.
Lemma integer_pct ints neg ds s : numeral ds -> marked ((if neg : bool then [45] else []) ++ ds) s -> In 37 s -> 0 < dec_value ds < 10 ^ 14 ->
  exists d1 f1 d2 f2, numeral d1 /\ numeral f1 /\ numeral d2 /\ numeral f2 /\
    reads ints s [dec_expr neg d1 f1; dec_expr neg d2 f2] /\ close_to (magnitude d1 f1) (qn (dec_value ds) / 100) /\ close_to (magnitude d2 f2) (qn (dec_value ds)).
Proof.
  intros [F N] M Hp [Lo Hi]. destruct ds as [|c ds]; [congruence|]. inversion F as [|? ? Hc Fs]; subst. clear N.
  assert (P : py_float ((if neg then [45] else []) ++ c :: ds) = Some (float_of_dec neg (dec_value (c :: ds)) 0)).
  { rewrite signed_read; [|exact Hc|exact (digits_plain _ F)]. pose proof (parse_undotted neg (c :: ds) [] 0 F ltac:(discriminate) I I eq_refl) as Q. rewrite app_nil_r in Q. exact Q. }
  set (D := dec_value (c :: ds)) in *. rewrite float_of_dec_big in P; [|lia|eapply N.lt_trans; [exact Hi|vm_compute; reflexivity]].
  assert (X : (qn D / qn 1 == qn D)%Q) by (change (qn 1) with 1%Q; field).
  assert (H14 : (qn D < qn (10 ^ 14))%Q) by (apply qn_lt, Hi).
  destruct (round_finite D 1 ltac:(lia)) as (m & e & R). { rewrite X. eapply Qlt_trans; [exact H14|vm_compute; reflexivity]. }
  unfold mk_float in P. rewrite R in P. pose proof (round_error D 1 ltac:(lia) m e R) as Er. rewrite X in Er.
  eapply (pct_reads ints neg _ s (qn D) m e); try eassumption.
  - destruct neg; cbn [app]; [cbn [forallb]; change (num_cp 45) with true|]; exact (digits_plain _ F).
  - assert (1 <= qn D)%Q by (change 1%Q with (qn 1); apply qn_le; lia). lra.
  - destruct (round_double D 1 ltac:(lia) ltac:(lia) m e R) as [[Z _]|Dd]; [left|right]; assumption.
Qed.

(** ** Another base *)
Lemma base_reads ints ds bs t : numeral ds -> base_written bs t -> reads ints (ds ++ 95 :: t) [Num ds; Num (dec_N (base_value (dec_value bs) ds))].
Proof.
  intros [F N] B. split; [|split; [discriminate|split]].
  - destruct ds as [|c ds]; [congruence|]. inversion F as [|? ? Hc Fs]; subst. pose proof (plain_no_space c) as Q.
    pose proof (digits_plain [c] (Forall_cons c Hc (Forall_nil _))) as Q'. cbn [forallb] in Q'. rewrite andb_true_r in Q'. unfold strip. apply strip_by_id; [exact (Q Q')|].
    assert (L : exists t' y, t = t' ++ [y] /\ is_space y = false).
    { destruct B as [b Hb|bs Fb _]; [exists [], b; split; [reflexivity|]|exists (123 :: bs), 125; split; [reflexivity|reflexivity]].
      apply plain_no_space. pose proof (digits_plain [b] (Forall_cons b Hb (Forall_nil _))) as Qb. cbn [forallb] in Qb. rewrite andb_true_r in Qb. exact Qb. }
    destruct L as (t' & y & -> & Hy). change ((c :: ds) ++ 95 :: t' ++ [y]) with ((c :: ds) ++ (95 :: t') ++ [y]). rewrite app_assoc, rev_app_distr. exact Hy.
  - constructor; [|constructor; [|constructor]]; (split; [|exact I]); [split; assumption|apply dec_N_numeral].
  - intro x. rewrite (normalize_base ints ds bs t F N B). reflexivity.
Qed.
(** ** An afternoon hour *)
Lemma hour_reads ints H k x : one_two H -> meridiem true x -> reads ints (H ++ spaces k ++ x) [Num (dec_N (num H mod 12)); Num (dec_N (num H mod 12 + 12))].
Proof.
  intros HH M. split; [|split; [discriminate|split]].
  - unfold strip. apply strip_by_id.
    + destruct HH as [F L]. destruct H as [|c H]; [destruct L; discriminate|]. inversion F as [|? ? Hc Fs]; subst. apply plain_no_space.
      pose proof (digits_plain [c] (Forall_cons c Hc (Forall_nil _))) as Q'. cbn [forallb] in Q'. rewrite andb_true_r in Q'. exact Q'.
    + assert (L : exists t' y, x = t' ++ [y] /\ is_space y = false).
      { destruct M as [x I|t x i j It I].
        - assert (G : forallb (fun p => match rev (snd p) with [] => false | y :: _ => negb (is_space y) end) am_texts = true) by (vm_compute; reflexivity).
          rewrite forallb_forall in G. specialize (G _ I). cbn [snd] in G. destruct (rev x) as [|y r] eqn:E; [discriminate G|]. exists (rev r), y.
          split; [rewrite <- (rev_involutive x), E; reflexivity|]. destruct (is_space y); [discriminate G|reflexivity].
        - exists (t ++ spaces i ++ x ++ spaces j), 125. split; [rewrite !app_assoc; reflexivity|reflexivity]. }
      destruct L as (t' & y & -> & Hy). rewrite !app_assoc, rev_app_distr. exact Hy.
  - constructor; [|constructor; [|constructor]]; (split; [apply dec_N_numeral|exact I]).
  - intro y. rewrite (hour_pm ints H k x HH M). reflexivity.
Qed.

(** ** Every float that is read, or made from one by division by 100, is read back from its text *)
Definition stored (f : pyfloat) : Prop := match f with FFin _ m e => m = 0 \/ double m e | _ => True end.
Definition same_double (f g : pyfloat) : Prop :=
  match f, g with
  | FNan, FNan => True
  | FInf a, FInf b => a = b
  | FFin a m e, FFin b m' e' => a = b /\ m = m' /\ (m = 0 \/ e = e')
  | _, _ => False
  end.
Lemma round_stored num den m e : den <> 0 -> round_ratio num den = Some (m, e) -> m = 0 \/ double m e.
Proof.
  intros D R. destruct (N.eq_dec num 0) as [->|Nz]; [left; cbn in R; injection R as <- _; reflexivity|]. destruct (round_double num den D Nz m e R) as [[Z _]|H]; [left|right]; assumption.
Qed.
Lemma mk_stored neg num den : den <> 0 -> stored (mk_float neg num den).
Proof. intro D. unfold mk_float. destruct (round_ratio num den) as [[m e]|] eqn:R; [|exact I]. exact (round_stored num den m e D R). Qed.
Lemma dec_stored neg D t : stored (float_of_dec neg D t).
Proof.
  unfold float_of_dec. destruct (D =? 0); [left; reflexivity|]. cbv zeta. destruct (310 <? _)%Z; [exact I|]. destruct (_ <? -330)%Z; [left; reflexivity|].
  destruct (0 <=? t)%Z; apply mk_stored; [discriminate|]. apply N.pow_nonzero. discriminate.
Qed.
Lemma read_stored s f : py_float s = Some f -> stored f.
Proof.
  assert (P : forall neg t, parse_unsigned neg t = Some f -> stored f).
  { intros neg t. unfold parse_unsigned. destruct (_ || _)%bool; [intros [= <-]; exact I|]. destruct (str_eqb _ _); [intros [= <-]; exact I|].
    destruct (span_digits t) as [i r]. destruct (match r with 46 :: t0 => span_digits t0 | _ => ([], r) end) as [fr r2]. destruct (i ++ fr) as [|c l]; [discriminate|].
    destruct (parse_exponent r2); [|discriminate]. intros [= <-]. apply dec_stored. }
  unfold py_float. destruct (drop_underscores _ _) as [t|]; [|discriminate]. intro H.
  destruct t as [|c t]; [discriminate H|]. destruct (N.eq_dec c 43) as [->|N1]; [exact (P _ _ H)|]. destruct (N.eq_dec c 45) as [->|N2]; [exact (P _ _ H)|].
  apply (P false (c :: t)). rewrite <- H. destruct c as [|p]; [reflexivity|]. do 6 (try reflexivity; destruct p as [p|p|]); try reflexivity; congruence.
Qed.
Lemma div100_stored f : stored f -> stored (div100 f).
Proof.
  destruct f as [|b|b m e]; cbn [div100]; try exact (fun _ => I). intros _. destruct (ratio_of m e) as [a d] eqn:R. destruct (ratio_value m e a d R) as [B _]. apply mk_stored. lia.
Qed.
Theorem stored_reads f : stored f -> exists g, py_float (float_str f) = Some g /\ same_double f g.
Proof.
  destruct f as [|b|b m e]; cbn [stored float_str].
  - intros _. exists FNan. split; [reflexivity|exact I].
  - intros _. exists (FInf b). split; [destruct b; reflexivity|reflexivity].
  - intros [-> |H]; [exists (FFin b 0 0); split; [destruct b; reflexivity|cbn; auto]|]. exists (FFin b m e). split; [exact (repr_read b m e H)|cbn; auto].
Qed.
Lemma texts_distinct f g : stored f -> stored g -> float_str f = float_str g -> same_double f g.
Proof.
  intros Hf Hg E. destruct (stored_reads f Hf) as (f' & Rf & Sf). destruct (stored_reads g Hg) as (g' & Rg & Sg). rewrite E, Rg in Rf. injection Rf as <-.
  destruct f, g, g'; cbn in *; try contradiction; try congruence. destruct Sf as (-> & -> & A), Sg as (-> & -> & B). split; [reflexivity|]. split; [reflexivity|]. destruct A, B; auto. right; congruence.
Qed.

(** ** Two percentages, one a hundred times the other, are accepted for each other *)
Definition signed_q (neg : bool) (q : Q) : Q := if neg then (- q)%Q else q.
Lemma near_scalar neg a b q q' : (0 < q)%Q -> (q < qn (10 ^ 12))%Q -> (q' == q)%Q -> close_to a q -> close_to b q' -> scalar_close (signed_q neg a) (signed_q neg b).
Proof.
  intros Lo Hi E Ha Hb. unfold close_to in *. rewrite slack50 in *. rewrite E in Hb. apply abs_le in Ha, Hb. change (qn (10 ^ 12)) with (1000000000000 # 1)%Q in Hi.
  assert (A0 : (0 < a)%Q) by lra.
  assert (Sa : (Qabs (signed_q neg a) == a)%Q) by (unfold signed_q; destruct neg; [rewrite Qabs_opp|]; apply Qabs_pos; lra).
  assert (Sd : (Qabs (signed_q neg a - signed_q neg b) == Qabs (a - b))%Q).
  { unfold signed_q. destruct neg; [|reflexivity]. rewrite <- (Qabs_opp (a - b)). f_equiv. ring. }
  unfold scalar_close. rewrite Sa, Sd. right. right. destruct (Qlt_le_dec a 1) as [L|L].
  - right. split; [exact A0|]. split; [exact L|]. unfold Qdiv. rewrite Qabs_Qmult, Sd.
    assert (I : (Qabs (/ signed_q neg a) == / a)%Q).
    { unfold signed_q. destruct neg; [|apply Qabs_pos, Qlt_le_weak, Qinv_lt_0_compat, A0].
      assert (/ - a == - / a)%Q as -> by (field; lra). rewrite Qabs_opp. apply Qabs_pos, Qlt_le_weak, Qinv_lt_0_compat, A0. }
    rewrite I. apply Qlt_shift_div_r; [exact A0|]. assert (G : (Qabs (a - b) <= q * (1 # 500000000000000))%Q) by (apply abs_le; lra). lra.
  - left. split; [exact L|]. assert (G : (Qabs (a - b) <= q * (1 # 500000000000000))%Q) by (apply abs_le; lra). lra.
Qed.
Section Verdict.
Context {V St E Ob Sym Num : Type}.
Variable O : LSympy V.
Variable depth : nat.
Variable emb : lv V -> pyval E Ob.
Variable SP : Sympy St E Ob Sym Num.
Variable num : pyval E Ob -> Q -> bool -> Prop.
Context {A : Type}.
Variable K : arithmetic A.
Variable den : V -> A.
Variable rho : pystr -> A.
Hypothesis F : faithful K V den rho [] (o_md5 _ O) O.
Hypothesis HP : forall s t, parse_text s = Found t -> o_parse _ O s = Ret t.
Hypothesis X : exact SP num.
Hypothesis HA : answers SP num.
Hypothesis HN : forall v q, worth V den O v (of_Q K q) -> exists i, num (emb (LV v)) q i.
Hypothesis opp_Q : forall q, opp K (of_Q K q) = of_Q K (- q).
Context {V' S : Type}.
Variable IS : ISympy (globals V * St) V' S.
Variable cmp : S -> S -> M (globals V * St) bool.
Variable ints : pystr -> pystr.
Variable iter : list pystr -> list pystr.
Variable iter_ok : forall l, Permutation (iter l) (nodup str_eq_dec l).
Variable lhs : pystr -> M (globals V * St) unit.
Notation W m := (with_intervals IS cmp ints iter iter_ok (are_equal_with_simplify (joined O depth emb SP) (Datatypes.S m)) lhs).
Definition decimals_read (neg : bool) : Prop := forall ds fs, numeral ds -> numeral fs -> python_agrees SP num (dec_text neg ds fs) (signed_q neg (dec_fraction ds fs)).
Lemma decimal_worth neg ds fs : decimals_read neg -> numeral ds -> numeral fs -> worth_number SP num K rho (dec_expr neg ds fs, signed_q neg (dec_fraction ds fs)).
Proof.
  intros R G1 G2. split; cbn [fst snd]; [|rewrite dec_expr_text; apply R; assumption]. unfold dec_expr, signed_q. destruct neg; cbn [value]; [apply opp_Q|reflexivity].
Qed.
Theorem hundredfold n m k neg ds fs ds' fs' s s' st : depth = Datatypes.S n -> decimals_read neg -> numeral ds -> numeral fs -> numeral ds' -> numeral fs' ->
  marked (dec_text neg ds fs) s -> In 37 s -> marked (dec_text neg ds' fs') s' -> In 37 s' ->
  (1 # 50 <= magnitude ds fs)%Q -> (magnitude ds fs < qn (10 ^ 12))%Q -> (magnitude ds' fs' == magnitude ds fs * 100)%Q -> unset st ->
  fst (is_equiv (W m) (Datatypes.S k) (Some s) (Some s') st) = Ret true /\ fst (is_equiv (W m) (Datatypes.S k) (Some s') (Some s) st) = Ret true.
Proof.
  intros D R G1 G2 G1' G2' M P M' P' Lo Hi Eq U. pose proof Hi as Hi'. change (qn (10 ^ 12)) with (1000000000000 # 1)%Q in Hi'.
  destruct (decimal_pct ints neg ds fs s G1 G2 M P Lo) as (d1 & f1 & d2 & f2 & A1 & A2 & A3 & A4 & Rd & _ & C2); [change (qn (10 ^ 14)) with (100000000000000 # 1)%Q; lra|].
  destruct (decimal_pct ints neg ds' fs' s' G1' G2' M' P') as (d1' & f1' & d2' & f2' & A1' & A2' & A3' & A4' & Rd' & C1' & _); [lra|change (qn (10 ^ 14)) with (100000000000000 # 1)%Q; lra|].
  assert (E' : (magnitude ds' fs' / 100 == magnitude ds fs)%Q) by (rewrite Eq; field).
  assert (T : forall d f, numeral f -> (magnitude d f == dec_fraction d f)%Q) by (intros d f [_ Nf]; apply magnitude_fraction; exact Nf).
  assert (L0 : (0 < magnitude ds fs)%Q) by lra.
  assert (S1 : scalar_close (signed_q neg (dec_fraction d2 f2)) (signed_q neg (dec_fraction d1' f1'))).
  { apply (near_scalar neg _ _ (magnitude ds fs) (magnitude ds' fs' / 100) L0 Hi E'); unfold close_to; rewrite <- T by assumption; assumption. }
  assert (S2 : scalar_close (signed_q neg (dec_fraction d1' f1')) (signed_q neg (dec_fraction d2 f2))).
  { apply (near_scalar neg _ _ (magnitude ds' fs' / 100) (magnitude ds fs)); [lra|rewrite E'; exact Hi|symmetry; exact E'|unfold close_to; rewrite <- T by assumption; assumption..]. }
  pose (l := [(dec_expr neg d1 f1, signed_q neg (dec_fraction d1 f1)); (dec_expr neg d2 f2, signed_q neg (dec_fraction d2 f2))]).
  pose (l' := [(dec_expr neg d1' f1', signed_q neg (dec_fraction d1' f1')); (dec_expr neg d2' f2', signed_q neg (dec_fraction d2' f2'))]).
  assert (Wl : Forall (worth_number SP num K rho) l) by (constructor; [|constructor; [|constructor]]; apply decimal_worth; assumption).
  assert (Wl' : Forall (worth_number SP num K rho) l') by (constructor; [|constructor; [|constructor]]; apply decimal_worth; assumption).
  split.
  - destruct (readings_verdict O depth emb SP num K den rho F HP X HA HN IS cmp ints iter iter_ok lhs n m k s s' l l' st D Rd Rd' Wl Wl' U) as (b & Eb & Hb).
    rewrite Eb. f_equal. apply Hb. exists (nth 1 l (Arith.Num [], 0%Q)), (nth 0 l' (Arith.Num [], 0%Q)). split; [right; left; reflexivity|]. split; [left; reflexivity|exact S1].
  - destruct (readings_verdict O depth emb SP num K den rho F HP X HA HN IS cmp ints iter iter_ok lhs n m k s' s l' l st D Rd' Rd Wl' Wl U) as (b & Eb & Hb).
    rewrite Eb. f_equal. apply Hb. exists (nth 0 l' (Arith.Num [], 0%Q)), (nth 1 l (Arith.Num [], 0%Q)). split; [left; reflexivity|]. split; [right; left; reflexivity|exact S2].
Qed.
End Verdict.
