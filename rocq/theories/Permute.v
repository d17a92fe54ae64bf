(** Permutations: a parenthesis with a subscript in braces; two letters that make a word *)
From Coq Require Import String List NArith ZArith QArith Bool Lia.
From Verif Require Import NormNum PyStr PyStrTheory Regex RegexTheory Normalize NumTheory NormTheory Monad L2S L2STheory L2SState L2SValue L2SFindings Lexer Grammar GrammarTheory Arith ArithLex ArithPrep ArithParse GrammarFindings Named.
Import ListNotations.
Local Close Scope Q_scope.
Local Open Scope N_scope.

(** * Writing, independently of the preparation and its pattern *)
(** letters, digits, + - * / \ and the space *)
Definition plain_char (c : N) : bool :=
  (97 <=? c) && (c <=? 122) || (65 <=? c) && (c <=? 90) || (48 <=? c) && (c <=? 57) || existsb (N.eqb c) (u "+-*/\ ").
Definition simple_text (s : pystr) : Prop := forallb plain_char s = true.
(** a text with permutations in it: text, a permutation of [f] out of [e], text, ... *)
Definition perm_part : Type := arith * arith * pystr.
Section Writing.
Variable gap : pystr.
Definition perm_text (e f : arith) : pystr := u "(" ++ body gap e ++ u ")_{" ++ body gap f ++ u "}".
Fixpoint with_perms (s : pystr) (l : list perm_part) : pystr :=
  s ++ match l with [] => [] | (e, f, t) :: l' => perm_text e f ++ with_perms t l' end.
(** what is meant: e! / (e - f)! *)
Definition perm_meant (e f : arith) : arith := Frac (Fact (Group e)) (Fact (Group (Bin Minus (Group e) (Group f)))).
Fixpoint with_fracs (s : pystr) (l : list perm_part) : pystr :=
  s ++ match l with [] => [] | (e, f, t) :: l' => body gap (perm_meant e f) ++ with_fracs t l' end.
Definition simple_part (p : perm_part) : Prop := let '(e, f, _) := p in wf e /\ wf f /\ simple_text (body gap e) /\ simple_text (body gap f).

(** * The pattern *)
Lemma plain_cls c : cls_in perm_cls c = plain_char c.
Proof. unfold plain_char, perm_cls. change (u "+-*/\ ") with [43; 45; 42; 47; 92; 32]. cbn [cls_in existsb]. rewrite !(N.eqb_sym c), orb_false_r, <- !orb_assoc. reflexivity. Qed.
Lemma plain_all s : forallb (cls_in perm_cls) s = forallb plain_char s.
Proof. induction s as [|c s IH]; [reflexivity|]. cbn [forallb]. rewrite plain_cls, IH. reflexivity. Qed.
Lemma in_lazy_plus n k pre s cs st' : In st' (matches (RGrp n (lazy_plus k)) (MSt pre s cs)) <->
  exists w s', s = w ++ s' /\ w <> [] /\ forallb (cls_in k) w = true /\ st' = MSt (rev w ++ pre) s' ((n, w) :: cs).
Proof.
  rewrite in_grp. unfold lazy_plus. setoid_rewrite in_seq. split.
  - intros (st1 & w & (st2 & H1 & H2) & E & ->). apply in_chr in H1. destruct H1 as (c & s1 & -> & Hc & ->).
    apply in_star_chr in H2. destruct H2 as (v & s' & -> & Hv & ->). cbn [after before caps] in *.
    exists (c :: v), s'. change (c :: v ++ s') with ((c :: v) ++ s') in E. apply app_inv_tail in E. subst w.
    split; [reflexivity|]. split; [discriminate|]. split; [cbn [forallb]; rewrite Hc; exact Hv|]. cbn [rev]. rewrite <- app_assoc. reflexivity.
  - intros (w & s' & -> & Hw & Hf & ->). destruct w as [|c v]; [contradiction|]. cbn [forallb] in Hf. apply andb_true_iff in Hf. destruct Hf as [Hc Hv].
    exists (MSt (rev (c :: v) ++ pre) s' cs), (c :: v). split.
    + exists (MSt (c :: pre) (v ++ s') cs). split; [apply in_chr; exists c, (v ++ s'); auto|]. apply in_star_chr. exists v, s'.
      split; [reflexivity|]. split; [exact Hv|]. cbn [rev]. rewrite <- app_assoc. reflexivity.
    + split; reflexivity.
Qed.
Definition perm_of (a b : pystr) : pystr := u "(" ++ a ++ u ")_{" ++ b ++ u "}".
Lemma in_perm pre s st' : In st' (matches perm_re (MSt pre s [])) <->
  exists a b r, s = perm_of a b ++ r /\ a <> [] /\ b <> [] /\ simple_text a /\ simple_text b /\ st' = MSt (rev (perm_of a b) ++ pre) r [(2%nat, b); (1%nat, a)].
Proof.
  unfold perm_re, simple_text. repeat setoid_rewrite in_rseq_cons. setoid_rewrite in_rseq_nil. split.
  - intros (st1 & H1 & st2 & H2 & st3 & H3 & st4 & H4 & st5 & H5 & ->).
    apply in_rstr in H1. destruct H1 as (s1 & -> & ->). apply in_lazy_plus in H2. destruct H2 as (a & s2 & -> & Na & Ha & ->).
    apply in_rstr in H3. destruct H3 as (s3 & -> & ->). apply in_lazy_plus in H4. destruct H4 as (b & s4 & -> & Nb & Hb & ->).
    apply in_rstr in H5. destruct H5 as (s5 & -> & ->). exists a, b, s5. rewrite plain_all in Ha, Hb. unfold perm_of.
    split; [rewrite <- !app_assoc; reflexivity|]. do 4 (split; [assumption|]). f_equal. rewrite !rev_app_distr, <- !app_assoc. reflexivity.
  - intros (a & b & r & -> & Na & Nb & Ha & Hb & ->). unfold perm_of. rewrite <- plain_all in Ha, Hb.
    eexists. split; [apply in_rstr; eexists; split; [rewrite <- !app_assoc; reflexivity|reflexivity]|].
    eexists. split; [apply in_lazy_plus; eexists a, _; do 3 (split; [reflexivity || assumption|]); reflexivity|].
    eexists. split; [apply in_rstr; eexists; split; reflexivity|].
    eexists. split; [apply in_lazy_plus; eexists b, _; do 3 (split; [reflexivity || assumption|]); reflexivity|].
    eexists. split; [apply in_rstr; eexists; split; reflexivity|]. f_equal. rewrite !rev_app_distr, <- !app_assoc. reflexivity.
Qed.
Lemma perm_at pre a b r : a <> [] -> b <> [] -> simple_text a -> simple_text b ->
  match_at perm_re pre (perm_of a b ++ r) = Some (MSt (rev (perm_of a b) ++ pre) r [(2%nat, b); (1%nat, a)]).
Proof.
  intros Na Nb Ha Hb. apply match_at_unique; [apply in_perm; exists a, b, r; auto 8|].
  intros st' H. apply in_perm in H. destruct H as (a' & b' & r' & E & _ & _ & Ha' & Hb' & ->). unfold perm_of in E. rewrite <- !app_assoc in E.
  change (40 :: a ++ 41 :: 95 :: 123 :: b ++ 125 :: r = 40 :: a' ++ 41 :: 95 :: 123 :: b' ++ 125 :: r') in E. injection E as E.
  apply (span_unique plain_char) in E; [|assumption..|reflexivity]. destruct E as [-> E]. injection E as E.
  apply (span_unique plain_char) in E; [|assumption..|reflexivity]. destruct E as [-> ->]. reflexivity.
Qed.
(** No match begins before. *)
Lemma app_meet {A} (x y p q : list A) : x ++ y = p ++ q -> (exists m, p = x ++ m /\ y = m ++ q) \/ (exists c m, x = p ++ c :: m /\ q = c :: m ++ y).
Proof.
  revert p. induction x as [|a x IH]; intros p E; [left; exists p; auto|]. destruct p as [|b p]; [right; exists a, x; auto|].
  cbn [app] in E. injection E as -> E. destruct (IH p E) as [(m & -> & H)|(c & m & -> & H)]; [left; exists m; auto|right; exists c, m; auto].
Qed.
Lemma perm_skip f t s : s = [] \/ (exists r, s = 40 :: r) -> forall pre, ~ In 95 t -> sub_go perm_re f 0 pre (t ++ s) = t ++ sub_go perm_re f 0 (rev t ++ pre) s.
Proof.
  intro Hs. induction t as [|c t IH]; intros pre H; [reflexivity|]. cbn [app]. rewrite sub_go_none.
  - f_equal. rewrite IH by (intro X; apply H; right; exact X). cbn [rev]. rewrite <- app_assoc. reflexivity.
  - apply match_at_none. destruct (matches perm_re (MSt pre (c :: t ++ s) [])) as [|st l] eqn:E; [reflexivity|exfalso].
    assert (X : In st (matches perm_re (MSt pre (c :: t ++ s) []))) by (rewrite E; left; reflexivity).
    apply in_perm in X. destruct X as (a & b & r & Ex & _ & _ & Ha & _). unfold perm_of in Ex. rewrite <- !app_assoc in Ex. cbn [u app] in Ex.
    change (c :: t ++ s = 40 :: a ++ 41 :: 95 :: 123 :: b ++ 125 :: r) in Ex. injection Ex as _ Ex.
    destruct (app_meet _ _ _ _ Ex) as [(m & -> & Es)|(d & m & -> & Es)].
    + unfold simple_text in Ha. rewrite forallb_app in Ha. apply andb_true_iff in Ha. destruct Ha as [_ Hm].
      destruct Hs as [->|(r' & ->)]; [destruct m; discriminate Es|]. destruct m as [|x m]; [discriminate Es|]. injection Es as <- _. discriminate Hm.
    + injection Es as <- Es. destruct m as [|x m]; [cbn [app] in Es; destruct Hs as [->|(r' & ->)]; discriminate Es|]. injection Es as <- _.
      apply H. right. apply in_or_app. right. right. left. reflexivity.
Qed.
Definition perm_pieces : list piece := [PLit (u "\frac{("); PGrp 1; PLit (u ")!}{(("); PGrp 1; PLit (u ")-("); PGrp 2; PLit (u "))!}")].
Lemma meant_body e f : body gap (perm_meant e f) = expand perm_pieces [(2%nat, body gap f); (1%nat, body gap e)].
Proof.
  unfold perm_meant, perm_pieces, expand. cbn [body prec Nat.leb op_prec op_latex flat_map group Nat.eqb]. unfold parens. rewrite <- !app_assoc. reflexivity.
Qed.
Hypothesis Hgap : gap = [] \/ gap = [32].
Lemma perms_start l : (match l with [] => [] | (e, f, t) :: l' => perm_text e f ++ with_perms t l' end) = [] \/ (exists r, (match l with [] => [] | (e, f, t) :: l' => perm_text e f ++ with_perms t l' end) = 40 :: r).
Proof. destruct l as [|[[e f] t] l]; [left; reflexivity|right; eexists; reflexivity]. Qed.
Lemma sub_perms l : forall s pre, Forall simple_part l -> ~ In 95 s -> Forall (fun p : perm_part => ~ In 95 (snd p)) l ->
  sub_go perm_re (fun _ cs => expand perm_pieces cs) 0 pre (with_perms s l) = with_fracs s l.
Proof.
  induction l as [|[[e f] t] l IH]; intros s pre F H Hl; cbn [with_perms with_fracs].
  - rewrite perm_skip by (auto). reflexivity.
  - rewrite perm_skip; [f_equal|right; eexists; reflexivity|exact H]. apply Forall_cons_iff in F. destruct F as [(We & Wf & Se & Sf) F]. apply Forall_cons_iff in Hl. destruct Hl as [Ht Hl].
    change (perm_text e f) with (perm_of (body gap e) (body gap f)).
    rewrite (sub_go_match _ _ _ _ _ _ (perm_at _ _ _ _ (body_ne gap e We) (body_ne gap f Wf) Se Sf) eq_refl) by discriminate. cbn [caps]. rewrite <- meant_body. f_equal. apply IH; assumption.
Qed.

(** * The other replacements find nothing *)
Lemma starts_with_cut c q : ~ In c q -> forall a b, q <> [] -> starts_with q (a ++ c :: b) = starts_with q a.
Proof.
  induction q as [|d q IH]; intros H a b N; [congruence|]. destruct a as [|x a]; cbn [app starts_with].
  - destruct (N.eqb_spec d c) as [->|]; [destruct H; left; reflexivity|reflexivity].
  - destruct (d =? x); [|reflexivity]. cbn [andb]. destruct q as [|d' q]; [destruct a; reflexivity|]. apply IH; [intro X; apply H; right; exact X|discriminate].
Qed.
Lemma contains_cut c q a b : ~ In c q -> q <> [] -> contains q (a ++ c :: b) = contains q a || contains q b.
Proof.
  intros H N. induction a as [|x a IH].
  - cbn [app contains]. destruct q as [|d q]; [congruence|]. cbn [starts_with]. destruct (N.eqb_spec d c) as [->|]; [destruct H; left; reflexivity|reflexivity].
  - cbn [app contains]. change (x :: a ++ c :: b) with ((x :: a) ++ c :: b). rewrite starts_with_cut by assumption. rewrite IH, orb_assoc. reflexivity.
Qed.
Lemma contains_l q a b : contains q a = true -> contains q (a ++ b) = true.
Proof. rewrite !contains_spec. intros (x & y & ->). exists x, (y ++ b). rewrite <- !app_assoc. reflexivity. Qed.
Lemma contains_r q a b : contains q b = true -> contains q (a ++ b) = true.
Proof. rewrite !contains_spec. intros (x & y & ->). exists (a ++ x), y. rewrite <- !app_assoc. reflexivity. Qed.
Lemma contains_nil q : q <> [] -> contains q [] = false.
Proof. destruct q; [congruence|reflexivity]. Qed.
Lemma perms_contain q l : q <> [] -> Forall (fun c => ~ In c q) (u "(_{})") -> forall s, contains q (with_perms s l) = true -> contains q (with_fracs s l) = true.
Proof.
  intros N F. cbn in F. rewrite !Forall_cons_iff in F. destruct F as (F1 & F2 & F3 & F4 & F5 & _).
  induction l as [|[[e f] t] l IH]; intros s H; cbn [with_perms with_fracs] in *; [exact H|].
  unfold perm_text in H. rewrite <- !app_assoc in H.
  change (contains q (s ++ 40 :: body gap e ++ 41 :: [] ++ 95 :: [] ++ 123 :: body gap f ++ 125 :: with_perms t l) = true) in H.
  rewrite !contains_cut in H by assumption. rewrite !contains_nil, !orb_true_iff in H by assumption. rewrite meant_body. unfold perm_pieces, expand. cbn [flat_map group Nat.eqb]. rewrite <- !app_assoc.
  destruct H as [H|[H|[H|[H|[H|H]]]]]; try discriminate H.
  - apply contains_l, H.
  - apply contains_r, contains_r, contains_l, H.
  - do 6 apply contains_r. apply contains_l, H.
  - do 8 apply contains_r. apply IH, H.
Qed.
Lemma fracs_no_underscore l : forall s, ~ In 95 (with_fracs s l) -> ~ In 95 s /\ Forall (fun p : perm_part => ~ In 95 (snd p)) l.
Proof.
  induction l as [|[[e f] t] l IH]; intros s H; cbn [with_fracs] in H.
  - rewrite app_nil_r in H. auto.
  - destruct (IH t) as [H1 H2]; [intro X; apply H; do 2 (apply in_or_app; right); exact X|]. split; [intro X; apply H; apply in_or_app; left; exact X|]. constructor; assumption.
Qed.
Lemma prepare_via s s' : Forall (fun q => contains q s = false) cores -> re_sub perm_re perm_pieces s = s' -> Forall (fun q => contains q s' = false) cores -> ~ In 95 s' -> prepare s = s'.
Proof.
  intros F E F' U. rewrite <- (prepare_plain s' F' U). rewrite <- E in *. unfold cores in F, F'. cbn [map] in F, F'. rewrite Forall_forall in F, F'.
  assert (G : forall p q r t, In q (map u ["\dfrac"; "\tfrac"; "\mathrm"; "\rm"; "\begin"; "\end"; "\displaystyle"; "\quad"; "\qquad"; "~"; "\,"; "$"]%string) -> replace (p ++ q ++ r) t s = s).
  { intros p q r t H. apply replace_absent, contains_core, F, H. }
  assert (G' : forall p q r t, In q (map u ["\dfrac"; "\tfrac"; "\mathrm"; "\rm"; "\begin"; "\end"; "\displaystyle"; "\quad"; "\qquad"; "~"; "\,"; "$"]%string) -> replace (p ++ q ++ r) t (re_sub perm_re perm_pieces s) = re_sub perm_re perm_pieces s).
  { intros p q r t H. apply replace_absent, contains_core, F', H. }
  unfold prepare. cbv zeta. fold perm_pieces.
  rewrite (G [] (u "\dfrac") [] (u "\frac") ltac:(cbn; tauto) : replace (u "\dfrac") (u "\frac") s = s).
  rewrite (G [] (u "\tfrac") [] (u "\frac") ltac:(cbn; tauto) : replace (u "\tfrac") (u "\frac") s = s).
  rewrite (G [] (u "\mathrm") (u "{T}") (u "T") ltac:(cbn; tauto) : replace (u "\mathrm{T}") (u "T") s = s).
  rewrite (G [] (u "\mathrm") (u "{d}") (u "d") ltac:(cbn; tauto) : replace (u "\mathrm{d}") (u "d") s = s).
  rewrite (G (u "{") (u "\rm") (u " d}") (u "d") ltac:(cbn; tauto) : replace (u "{\rm d}") (u "d") s = s).
  rewrite (G (u "\left[") (u "\begin") (u "{matrix}") (u "\begin{bmatrix}") ltac:(cbn; tauto) : replace (u "\left[\begin{matrix}") (u "\begin{bmatrix}") s = s).
  rewrite (G [] (u "\end") (u "{matrix}\right]") (u "\end{bmatrix}") ltac:(cbn; tauto) : replace (u "\end{matrix}\right]") (u "\end{bmatrix}") s = s).
  set (s1 := re_sub perm_re perm_pieces s) in *.
  rewrite (G' [] (u "\dfrac") [] (u "\frac") ltac:(cbn; tauto) : replace (u "\dfrac") (u "\frac") s1 = s1).
  rewrite (G' [] (u "\tfrac") [] (u "\frac") ltac:(cbn; tauto) : replace (u "\tfrac") (u "\frac") s1 = s1).
  rewrite (G' [] (u "\mathrm") (u "{T}") (u "T") ltac:(cbn; tauto) : replace (u "\mathrm{T}") (u "T") s1 = s1).
  rewrite (G' [] (u "\mathrm") (u "{d}") (u "d") ltac:(cbn; tauto) : replace (u "\mathrm{d}") (u "d") s1 = s1).
  rewrite (G' (u "{") (u "\rm") (u " d}") (u "d") ltac:(cbn; tauto) : replace (u "{\rm d}") (u "d") s1 = s1).
  rewrite (G' (u "\left[") (u "\begin") (u "{matrix}") (u "\begin{bmatrix}") ltac:(cbn; tauto) : replace (u "\left[\begin{matrix}") (u "\begin{bmatrix}") s1 = s1).
  rewrite (G' [] (u "\end") (u "{matrix}\right]") (u "\end{bmatrix}") ltac:(cbn; tauto) : replace (u "\end{matrix}\right]") (u "\end{bmatrix}") s1 = s1).
  rewrite (sub_id_lit 95 perm_re _ s1 ltac:(vm_compute; reflexivity) U : re_sub perm_re perm_pieces s1 = s1). reflexivity.
Qed.
Theorem prepare_perms s l E : Forall simple_part l -> wf E -> with_fracs s l = body gap E -> prepare (with_perms s l) = body gap E.
Proof.
  intros F W Eq. pose proof (lettered_toks gap Hgap E [] W (or_introl eq_refl)) as L.
  assert (U : ~ In 95 (body gap E)) by (rewrite <- (src_toks gap E [] W : src (toks gap E []) = body gap E); apply src_no_underscore, L).
  assert (A : Forall (fun q => contains q (body gap E) = false) cores).
  { pose proof cores_absent as C. rewrite Forall_forall in *. intros q H. rewrite <- (src_toks gap E [] W : src (toks gap E []) = body gap E). apply absent_src; [apply C, H|apply Forall_forall, L]. }
  rewrite <- Eq in *. destruct (fracs_no_underscore l s U) as [U1 U2]. apply prepare_via; [|apply sub_perms; assumption|exact A|exact U].
  assert (T : forallb (fun q => match q with [] => false | _ => forallb (fun c => negb (existsb (N.eqb c) q)) (u "(_{})") end) cores = true) by (vm_compute; reflexivity).
  rewrite forallb_forall in T. rewrite Forall_forall in *. intros q H. specialize (T q H). specialize (A q H). destruct (contains q (with_perms s l)) eqn:E1; [|reflexivity].
  rewrite <- A. symmetry. apply perms_contain; [destruct q; [discriminate T|discriminate]| |exact E1]. destruct q as [|d q]; [discriminate T|].
  apply Forall_forall. rewrite forallb_forall in T. intros c Hc X. specialize (T c Hc). apply negb_true_iff in T. assert (existsb (N.eqb c) (d :: q) = true); [|congruence].
  apply existsb_exists. exists c. split; [exact X|apply N.eqb_refl].
Qed.
End Writing.
Theorem latex2sympy_perms {A} (KA : arithmetic A) V (O : LSympy V) den rho vs n s l E st :
  faithful KA V den rho vs (o_md5 _ O) O -> (forall s t, parse_text s = Found t -> o_parse _ O s = Ret t) -> g_var st = [] ->
  Forall (simple_part [32]) l -> wf E -> with_fracs [32] s l = latex E ->
  exists v, fst (latex2sympy O (S n) (with_perms [32] s l) vs st) = Ret (LV v) /\ worth V den O v (value KA rho E).
Proof.
  intros F P G Fl W Eq. destruct (parse_latex KA V den rho vs (o_md5 _ O) E W) as (t & Ht & R).
  apply (latex2sympy_value KA V O den rho vs t); [exact F| |exact R|exact G]. rewrite (prepare_perms [32] (or_intror eq_refl) s l E Fl W Eq). apply P, Ht.
Qed.
Theorem latex2sympy_perm {A} (KA : arithmetic A) V (O : LSympy V) den rho vs n e f st :
  faithful KA V den rho vs (o_md5 _ O) O -> (forall s t, parse_text s = Found t -> o_parse _ O s = Ret t) -> g_var st = [] ->
  wf e -> wf f -> simple_text (latex e) -> simple_text (latex f) ->
  exists v, fst (latex2sympy O (S n) (u "(" ++ latex e ++ u ")_{" ++ latex f ++ u "}") vs st) = Ret (LV v) /\
    worth V den O v (div KA (fn KA (u "factorial") [value KA rho e]) (fn KA (u "factorial") [sub KA (value KA rho e) (value KA rho f)])).
Proof.
  intros F P G We Wf Se Sf. destruct (latex2sympy_perms KA V O den rho vs n [] [(e, f, [])] (perm_meant e f) st F P G) as (v & H & X).
  - constructor; [|constructor]. cbn. auto.
  - cbn. auto.
  - cbn [with_fracs app]. rewrite app_nil_r. reflexivity.
  - exists v. cbn [with_perms app] in H. rewrite app_nil_r in H. split; [exact H|exact X].
Qed.

(** * Two letters *)
Lemma two_letters x y : In x letters -> In y letters ->
  parse_text [x; 32; y] = Found (MRel (RExpr (TJuxt [TSymbol (NLetter [x]) None None; TSymbol (NLetter [y]) None None]))) /\
  parse_text [x; y] = if str_eqb [x; y] (u "tr") then NoParse else parse_text [x; 32; y].
Proof.
  intros Hx Hy. unfold letters in Hx, Hy. cbn [map In list_ascii_of_string] in Hx, Hy.
  repeat (destruct Hx as [<-|Hx]; [repeat (destruct Hy as [<-|Hy]; [split; vm_compute; reflexivity|]); destruct Hy|]). destruct Hx.
Qed.
Lemma normalizing_unreadable ints : exists s t s', parse_text s = Found t /\ string_normalize ints s = NStr s' /\ parse_text s' = NoParse.
Proof. exists (u "t r"). eexists _, (u "tr"). split; [vm_compute; reflexivity|]. split; vm_compute; reflexivity. Qed.
