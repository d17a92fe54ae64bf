(** The lexer takes the longest word of the vocabulary that begins the text. *)
From Coq Require Import String List PeanoNat NArith Bool Lia.
From Verif Require Import PyStr PyStrTheory Regex RegexTheory Normalize Lexer LexTheory Vocabulary.
Import ListNotations.
Local Open Scope N_scope.

(** ** The words of a rule *)
Definition ascii : list N := map N.of_nat (seq 0 128).
Fixpoint below_128 (k : cls) : bool :=
  match k with
  | CLit c => c <? 128
  | CRange _ b => b <? 128
  | COr a b => below_128 a && below_128 b
  | _ => false
  end.
Lemma below_ascii k c : below_128 k = true -> cls_in k c = true -> In c ascii.
Proof.
  intros B H. unfold ascii. apply in_map_iff. exists (N.to_nat c). rewrite N2Nat.id. split; [reflexivity|]. apply List.in_seq.
  enough (c < 128) by lia. revert B H. induction k; cbn; try discriminate.
  - rewrite N.ltb_lt, N.eqb_eq. lia.
  - rewrite N.ltb_lt, andb_true_iff, !N.leb_le. lia.
  - rewrite andb_true_iff, orb_true_iff. intuition.
Qed.
Lemma lit_in a c : cls_in (CLit a) c = true -> c = a.
Proof. cbn [cls_in]. intro H. apply N.eqb_eq in H. congruence. Qed.
Definition blank_end (l : list pystr) : list pystr := flat_map (fun w => [w; w ++ [32]]) l.
Definition words_of (kr : N * lrule) : list pystr :=
  if fst kr =? K_GREEK_CMD then blank_end greek_letters
  else if fst kr =? K_OTHER_SYMBOL_CMD then blank_end other_symbols
  else match snd kr with
  | Lits l => l
  | Chars k => map (fun c => [c]) (filter (cls_in k) ascii)
  | Pat _ => []
  end.
Definition endless : list N := [K_WS; K_DIFFERENTIAL; K_VARIABLE].
Definition is_endless (k : N) : bool := existsb (N.eqb k) endless.

Lemma den_text w v : den (rstr w) v <-> v = w.
Proof.
  revert v. induction w as [|c w IH]; intro v; cbn [rstr den]; [reflexivity|]. split.
  - intros (w1 & w2 & -> & (x & -> & E) & D). apply lit_in in E. apply IH in D. subst. reflexivity.
  - intros ->. exists [c], w. split; [reflexivity|]. split; [exists c; split; [reflexivity|apply N.eqb_refl]|apply IH; reflexivity].
Qed.
Lemma den_texts l v : den (ralts (map rstr l)) v <-> In v l.
Proof.
  induction l as [|w l IH].
  - cbn. split; [|intros []]. intros (c & _ & E). discriminate.
  - destruct l as [|w' l].
    + cbn [map ralts]. rewrite den_text. cbn. intuition.
    + change (den (RAlt (rstr w) (ralts (map rstr (w' :: l)))) v <-> In v (w :: w' :: l)). cbn [den]. rewrite den_text, IH. cbn [In]. intuition.
Qed.
Lemma den_blank l v : den (RSeq (ralts (map rstr l)) (ROpt (lit 32))) v <-> In v (blank_end l).
Proof.
  cbn [den ROpt lit]. unfold blank_end. rewrite in_flat_map. split.
  - intros (w1 & w2 & -> & D1 & [(c & -> & E)| ->]); apply den_texts in D1; exists w1; (split; [exact D1|]).
    + apply lit_in in E. subst. right. left. reflexivity.
    + left. rewrite app_nil_r. reflexivity.
  - intros (w & H & [<-|[<-|[]]]); apply den_texts in H.
    + exists w, []. rewrite app_nil_r. repeat split; [exact H|right; reflexivity].
    + exists w, [32]. repeat split; [exact H|]. left. exists 32. split; reflexivity.
Qed.
(** Every rule with finitely many words, in one of the three forms *)
Definition listed (kr : N * lrule) : Prop :=
  is_endless (fst kr) = true \/ forall w, spells (snd kr) w <-> In w (words_of kr).
Lemma lits_listed k l : (k =? K_GREEK_CMD) = false -> (k =? K_OTHER_SYMBOL_CMD) = false -> listed (k, Lits l).
Proof. intros E1 E2. right. intro w. unfold words_of. cbn [fst snd spells]. rewrite E1, E2. reflexivity. Qed.
Lemma chars_listed k c : (k =? K_GREEK_CMD) = false -> (k =? K_OTHER_SYMBOL_CMD) = false -> below_128 c = true -> listed (k, Chars c).
Proof.
  intros E1 E2 B. right. intro w. unfold words_of. cbn [fst snd spells]. rewrite E1, E2. rewrite in_map_iff. split.
  - intros (x & -> & H). exists x. split; [reflexivity|]. apply filter_In. split; [apply (below_ascii c); assumption|exact H].
  - intros (x & <- & H). apply filter_In in H. exists x. split; [reflexivity|apply H].
Qed.
Lemma greek_listed : listed (K_GREEK_CMD, Pat (RSeq greek (ROpt (lit 32)))).
Proof. right. intro w. exact (den_blank greek_letters w). Qed.
Lemma other_listed : listed (K_OTHER_SYMBOL_CMD, Pat (RSeq other_symbol (ROpt (lit 32)))).
Proof. right. intro w. exact (den_blank other_symbols w). Qed.
Lemma rules_listed : Forall listed rules.
Proof.
  unfold rules. repeat (apply Forall_cons;
    [first [apply lits_listed; reflexivity | apply chars_listed; reflexivity | exact greek_listed | exact other_listed | left; reflexivity]|]).
  apply Forall_nil.
Qed.
(** ** The table *)
Definition has (l : list pystr) (w : pystr) : bool := existsb (str_eqb w) l.
Lemma has_in l w : has l w = true <-> In w l.
Proof.
  unfold has. rewrite existsb_exists. split.
  - intros (x & H & E). apply str_eqb_eq in E. subst. exact H.
  - intro H. exists w. split; [exact H|apply str_eqb_eq; reflexivity].
Qed.
Fixpoint first_kind (l : list (N * lrule)) (w : pystr) : option N :=
  match l with
  | [] => None
  | kr :: l' => if negb (is_endless (fst kr)) && has (words_of kr) w then Some (fst kr) else first_kind l' w
  end.
Definition kind_is (o : option N) (k : N) : bool := match o with Some k' => k' =? k | None => false end.
Lemma table_sound : forallb (fun kw => kind_is (first_kind rules (snd kw)) (fst kw)) vocabulary = true.
Proof. vm_compute. reflexivity. Qed.
Lemma table_complete : forallb (fun kr => is_endless (fst kr) || forallb (has (map snd vocabulary)) (words_of kr)) rules = true.
Proof. vm_compute. reflexivity. Qed.
Lemma table_starts : forallb (fun kw => match snd kw with
   | [] => false
   | c :: _ => negb (cls_in ws_char c) && (negb (c =? 100) || existsb (str_eqb (snd kw)) (map u ["d"; "diag"; "diagonalize"]%string))
   end) vocabulary = true.
Proof. vm_compute. reflexivity. Qed.
Lemma first_kind_first l1 k r l2 w : Forall listed (l1 ++ (k, r) :: l2) -> is_endless k = false -> spells r w ->
  (forall k' r', In (k', r') l1 -> ~ spells r' w) -> first_kind (l1 ++ (k, r) :: l2) w = Some k.
Proof.
  intros F E S N. induction l1 as [|[k' r'] l1 IH]; cbn [app first_kind fst].
  - inversion F as [|? ? [H|H] _]; subst; cbn [fst snd] in H; [congruence|]. apply H, has_in in S. rewrite E, S. reflexivity.
  - inversion F as [|? ? H F']; subst. rewrite IH; [|exact F'|intros k0 r0 Hin; apply (N k0 r0); right; exact Hin].
    cbn [fst]. destruct (is_endless k') eqn:Ek; [reflexivity|]. cbn [negb andb]. destruct (has (words_of (k', r')) w) eqn:Hw; [|reflexivity].
    exfalso. destruct H as [H|H]; cbn [fst snd] in H; [congruence|]. apply (N k' r'); [left; reflexivity|]. apply H, has_in, Hw.
Qed.
Lemma first_kind_spells l w k : Forall listed l -> first_kind l w = Some k -> exists r, In (k, r) l /\ spells r w.
Proof.
  induction l as [|[k' r'] l IH]; intros F H; [discriminate|]. inversion F as [|? ? L F']; subst. cbn [first_kind fst] in H.
  destruct (negb (is_endless k') && has (words_of (k', r')) w) eqn:E.
  - injection H as <-. apply andb_true_iff in E. destruct E as [E1 E2]. apply negb_true_iff in E1. exists r'. split; [left; reflexivity|].
    destruct L as [L|L]; cbn [fst snd] in L; [congruence|]. apply L, has_in, E2.
  - destruct (IH F' H) as (r & Hin & Sp). exists r. split; [right; exact Hin|exact Sp].
Qed.

(** ** The rules with infinitely many words *)
Definition blank (c : N) : Prop := In c [32; 9; 13; 10].
Definition digit (c : N) : Prop := 48 <= c <= 57.
Definition a_letter (c : N) : Prop := 97 <= c <= 122 \/ 65 <= c <= 90.
Inductive special : N -> pystr -> Prop :=
| sp_blanks w : w <> [] -> Forall blank w -> special K_WS w
| sp_differential b v t : Forall blank b ->
    ((exists c, v = [c] /\ a_letter c) \/ (exists n, v = 92 :: n /\ n <> [] /\ Forall a_letter n)) ->
    (t = [] \/ (exists c, t = [95; c] /\ digit c) \/ (exists ds, t = u "_{" ++ ds ++ u "}" /\ ds <> [] /\ Forall digit ds)) ->
    special K_DIFFERENTIAL (100 :: b ++ v ++ t)
| sp_variable w : special K_VARIABLE (u "\variable{" ++ w).
Lemma ws_blank c : cls_in ws_char c = true -> blank c.
Proof. unfold ws_char, blank. cbn [cls_in]. rewrite !orb_true_iff, !N.eqb_eq. cbn [In]. intuition. Qed.
Lemma letter_a c : cls_in letter c = true -> a_letter c.
Proof. unfold letter, a_letter. cbn [cls_in]. rewrite !orb_true_iff, !andb_true_iff, !N.leb_le. intuition. Qed.
Lemma digit_a c : cls_in digit_c c = true -> digit c.
Proof. unfold digit_c, digit. cbn [cls_in]. rewrite !andb_true_iff, !N.leb_le. intuition. Qed.
Lemma star_of k (P : N -> Prop) w : (forall c, cls_in k c = true -> P c) -> star_l (den (RChr k)) w -> Forall P w.
Proof. intros H. induction 1 as [|w v Nw (c & -> & E) Hv IH]; [constructor|]. constructor; [apply H, E|exact IH]. Qed.
Lemma plus_of k (P : N -> Prop) w : (forall c, cls_in k c = true -> P c) -> den (RPlus (RChr k)) w -> w <> [] /\ Forall P w.
Proof.
  intros H. cbn [RPlus den]. intros (w1 & w2 & -> & (c & -> & E) & St). split; [discriminate|]. constructor; [apply H, E|apply (star_of k); assumption].
Qed.
Lemma the_rule k r r0 : In (k, r) rules -> filter (fun kr => fst kr =? k) rules = [(k, r0)] -> r = r0.
Proof.
  intros H F. assert (G : In (k, r) (filter (fun kr => fst kr =? k) rules)) by (apply filter_In; split; [exact H|apply N.eqb_refl]).
  rewrite F in G. destruct G as [[= <-]|[]]. reflexivity.
Qed.
Lemma endless_special k r w : In (k, r) rules -> is_endless k = true -> spells r w -> special k w.
Proof.
  intros Hin E. unfold is_endless in E. cbn [existsb endless] in E. rewrite !orb_true_iff, !N.eqb_eq in E.
  destruct E as [->|[->|[->|E]]]; [| | |discriminate].
  - rewrite (the_rule _ _ (Pat (RPlus (RChr ws_char))) Hin eq_refl). cbn [spells]. intro D. apply (plus_of _ blank) in D; [|exact ws_blank].
    constructor; apply D.
  - rewrite (the_rule _ _ (Pat differential_re) Hin eq_refl). unfold differential_re. cbn [spells rseq]. intro D.
    destruct D as (w1 & w2 & -> & (c & -> & E) & b & w3 & -> & B & v & w4 & -> & V & t & w5 & -> & T & D). cbn [den] in D. subst w5.
    apply lit_in in E. subst c. rewrite app_nil_r. apply (sp_differential b v t).
    + apply (star_of ws_char); [exact ws_blank|exact B].
    + destruct V as [(c & -> & E)|(a & n & -> & (c & -> & E) & D)].
      * left. exists c. split; [reflexivity|apply letter_a, E].
      * apply lit_in in E. subst c. right. exists n. split; [reflexivity|]. apply (plus_of letter); [exact letter_a|exact D].
    + destruct T as [(a & x & -> & (c & -> & E) & T)|T]; [|left; exact T]. apply lit_in in E. subst c. right.
      destruct T as [(c & -> & E)|(b1 & x1 & -> & (c & -> & E) & ds & x2 & -> & D & x3 & x4 & -> & (c' & -> & E') & Z)].
      * left. exists c. split; [reflexivity|apply digit_a, E].
      * cbn [den] in Z. subst x4. apply lit_in in E. apply lit_in in E'. subst. right. exists ds. split; [reflexivity|].
        apply (plus_of digit_c); [exact digit_a|exact D].
  - rewrite (the_rule _ _ (Pat variable_re) Hin eq_refl). unfold variable_re. cbn [spells rseq].
    intros (w1 & w2 & -> & D1 & w3 & w4 & -> & (c & -> & E) & _).
    apply den_text in D1. apply lit_in in E. subst. apply (sp_variable w4).
Qed.
(** ** The two directions *)
Lemma lex_one_words s k m : lex_one s = Some (k, m) -> In (k, firstn m s) vocabulary \/ special k (firstn m s).
Proof.
  intro H. destruct (lex_one_longest _ _ _ H) as [(Nw & _ & l1 & r & l2 & E & Sp & A & _) _].
  destruct (is_endless k) eqn:Ek.
  - right. apply (endless_special k r); [rewrite E; apply in_or_app; right; left; reflexivity|exact Ek|exact Sp].
  - left. pose proof rules_listed as L. pose proof table_complete as T. rewrite forallb_forall in T.
    assert (Hin : In (k, r) rules) by (rewrite E; apply in_or_app; right; left; reflexivity).
    specialize (T _ Hin). cbn [fst] in T. rewrite Ek in T. cbn [orb] in T. rewrite forallb_forall in T.
    rewrite Forall_forall in L. destruct (L _ Hin) as [Lk|Lk]; [cbn [fst] in Lk; congruence|]. pose proof (proj1 (Lk _) Sp) as Sp'. apply T, has_in in Sp'.
    apply in_map_iff in Sp'. destruct Sp' as ([k' w'] & Ew & Hv). cbn [snd] in Ew. subst w'.
    pose proof table_sound as TS. rewrite forallb_forall in TS. specialize (TS _ Hv). cbn [fst snd] in TS.
    rewrite E, first_kind_first in TS; try assumption.
    + cbn in TS. apply N.eqb_eq in TS. subst. exact Hv.
    + rewrite <- E. exact rules_listed.
    + intros k1 r1 H1 S1. pose proof (A k1 r1 (firstn m s) (skipn m s) H1 (eq_sym (firstn_skipn m s)) S1). lia.
Qed.
Lemma lex_one_word s k w rest : In (k, w) vocabulary -> s = w ++ rest -> w <> u "d" -> (forall x, s <> u "\variable{" ++ x) ->
  (forall k' w' rest', In (k', w') vocabulary -> s = w' ++ rest' -> (List.length w' <= List.length w)%nat) ->
  lex_one s = Some (k, List.length w).
Proof.
  intros Hv Es Nd Nv Max. pose proof table_sound as TS. rewrite forallb_forall in TS. pose proof table_starts as St. rewrite forallb_forall in St.
  pose proof (TS _ Hv) as K. pose proof (St _ Hv) as B. cbn [fst snd] in K, B. destruct (first_kind rules w) as [k0|] eqn:F; [|discriminate K].
  cbn in K. apply N.eqb_eq in K. subst k0. destruct w as [|c w]; [discriminate|].
  destruct (first_kind_spells _ _ _ rules_listed F) as (r0 & Hin & Sp).
  destruct (lex_one s) as [[k' m]|] eqn:Lx.
  2:{ pose proof (lex_one_none _ Lx _ _ _ _ Hin Es Sp). discriminate. }
  destruct (lex_one_longest _ _ _ Lx) as [(Nw & _ & l1 & r & l2 & E & Sp' & A & C) [Pm Lm]].
  assert (Len : List.length (firstn m s) = m) by (rewrite firstn_length; lia).
  assert (Ge : (List.length (c :: w) <= m)%nat).
  { rewrite E in Hin. apply in_app_or in Hin. destruct Hin as [Hin|Hin].
    - pose proof (A _ _ _ _ Hin Es Sp). lia.
    - pose proof (C _ _ _ _ Hin Es Sp). lia. }
  apply andb_true_iff in B. destruct B as [B1 B2].
  destruct (lex_one_words _ _ _ Lx) as [Hw|Hw].
  - pose proof (Max _ _ (skipn m s) Hw (eq_sym (firstn_skipn m s))) as Le. rewrite Len in Le. assert (Em : m = List.length (c :: w)) by lia.
    assert (Ew : firstn m s = c :: w) by (rewrite Em, Es, firstn_app, firstn_all, Nat.sub_diag, app_nil_r; reflexivity).
    rewrite Ew in Hw. pose proof (TS _ Hw) as K'. cbn [fst snd] in K'. rewrite F in K'. cbn in K'. apply N.eqb_eq in K'. subst k'. rewrite Em. reflexivity.
  - exfalso. assert (Ef : firstn m s = c :: firstn (m - 1) (w ++ rest)) by (rewrite Es; destruct m as [|m0]; [lia|replace (Datatypes.S m0 - 1)%nat with m0 by lia; reflexivity]).
    inversion Hw as [w0 N0 Fb Ek E0|b v t Fb Hvv Ht Ek E0|w0 Ek E0].
    + rewrite Ef in *. inversion Fb as [|? ? Bc _]; subst. unfold blank in Bc. cbn [In] in Bc. apply negb_true_iff in B1.
      destruct Bc as [<-|[<-|[<-|[<-|[]]]]]; discriminate B1.
    + rewrite Ef in E0. injection E0 as <- E0. cbn [N.eqb Pos.eqb negb orb] in B2.
      assert (Dg : exists w', w = 105 :: 97 :: w').
      { apply existsb_exists in B2. destruct B2 as (x & Hx & Ex). apply str_eqb_eq in Ex. cbn [map In] in Hx.
        destruct Hx as [<-|[<-|[<-|[]]]]; [exfalso; apply Nd; exact Ex| |]; injection Ex as ->; eexists; reflexivity. }
      destruct Dg as [w' ->]. cbn [List.length] in Ge. destruct (m - 1)%nat as [|[|m']] eqn:Em; try lia. cbn [app firstn] in E0.
      destruct Fb as [|x b Bx _]; [|injection E0 as -> _; unfold blank in Bx; cbn [In] in Bx; intuition discriminate].
      destruct Hvv as [(x & -> & _)|(n & -> & _)]; [|discriminate E0]. cbn [app] in E0. injection E0 as -> E0.
      destruct Ht as [->|[(x & -> & _)|(ds & -> & _)]]; discriminate E0.
    + apply (Nv (w0 ++ skipn m s)). pose proof (firstn_skipn m s) as FS. rewrite <- E0 in FS at 1. exact (eq_sym FS).
Qed.
