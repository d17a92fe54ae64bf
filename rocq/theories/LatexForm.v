(** Written arithmetic passes through the normaliser unchanged but for spaces and capitals. *)
From Coq Require Import String List NArith ZArith Bool Lia Arith.
From Verif Require Import UnicodeTables PyStr PyStrTheory NumTheory Regex RegexTheory Float64 Constants Normalize NormTheory NormNum SplitTheory NormAlg L2SValue Arith ArithLex Automaton FloatText.
Import ListNotations.
Local Open Scope N_scope.

(** ** An automaton for written arithmetic *)
Inductive place :=
| Fresh                        (* an operand is due *)
| Gap                          (* an operand is due, after a command and a space *)
| Digit                        (* after a digit *)
| Point                        (* after a decimal point *)
| Caret                        (* after a caret *)
| Done                         (* after an operand *)
| Cmd (name : pystr) (after_digit : bool).  (* inside a command *)

Definition place_eqb (p q : place) : bool :=
  match p, q with
  | Fresh, Fresh | Gap, Gap | Digit, Digit | Point, Point | Caret, Caret | Done, Done => true
  | Cmd a d, Cmd b e => str_eqb a b && Bool.eqb d e
  | _, _ => false
  end.
Lemma place_eqb_ok p q : place_eqb p q = true <-> p = q.
Proof.
  destruct p, q; cbn; try (split; congruence). rewrite andb_true_iff, str_eqb_eq, Bool.eqb_true_iff.
  split; [intros [-> ->]; reflexivity|intros [= -> ->]; auto].
Qed.

Definition digit_list : pystr := u "0123456789".
Definition lower_letters : pystr := u "abcdefghijklmnopqrstuvwxyz".
Definition all_letters : pystr := lower_letters ++ u "ABCDEFGHIJKLMNOPQRSTUVWXYZ".
(** letters that may follow a command and a space: no unit begins with them *)
Definition gap_letters : pystr := filter (fun c => negb (existsb (fun x => match x with d :: _ => d =? c | [] => false end) UNIT_SHORT_LIST)) all_letters.
Definition braced : list pystr := [u "frac"; u "binom"; u "sqrt"].
Definition spaced_cmds : list pystr := [u "cdot"; u "times"; u "div"; u "mod"; u "lfloor"; u "lceil"].
Definition ended_cmds : list pystr := u "pi" :: u "rfloor" :: u "rceil" :: map (@tl N) greeks.
Definition commands (after_digit : bool) : list pystr :=
  (if after_digit then [u "binom"; u "sqrt"] else braced) ++ spaced_cmds ++ ended_cmds ++ functions ++ [u "left"; u "right"].
Definition str_in (s : pystr) (l : list pystr) : bool := existsb (str_eqb s) l.

Definition operand (letters : pystr) (c : N) : option place :=
  if mem_cp digit_list c then Some Digit
  else if mem_cp letters c then Some Done
  else if (c =? 40) || (c =? 45) then Some Fresh
  else if c =? 92 then Some (Cmd [] false) else None.
Definition closing (c : N) : option place :=
  if mem_cp (u "+-*/{") c then Some Fresh
  else if mem_cp (u "!)]}") c then Some Done
  else if c =? 94 then Some Caret
  else if c =? 92 then Some (Cmd [] false) else None.
Definition move (q : place) (c : N) : option place :=
  match q with
  | Fresh => operand all_letters c
  | Gap => operand gap_letters c
  | Digit => if mem_cp digit_list c then Some Digit else if c =? 46 then Some Point else if mem_cp all_letters c then Some Done
             else if c =? 40 then Some Fresh else if c =? 92 then Some (Cmd [] true) else closing c
  | Point => if mem_cp digit_list c then Some Digit else None
  | Caret => if c =? 123 then Some Fresh else None
  | Done => closing c
  | Cmd p d =>
    if existsb (starts_with (p ++ [c])) (commands d) then Some (Cmd (p ++ [c]) d)
    else if str_in p braced && (c =? 123) || str_eqb p (u "sqrt") && (c =? 91) || str_in p functions && (c =? 40) || str_eqb p (u "left") && (c =? 124)
    then Some Fresh
    else if str_eqb p (u "right") && (c =? 124) then Some Done
    else if str_in p spaced_cmds then (if c =? 32 then Some Gap else operand gap_letters c)
    else if str_in p ended_cmds then closing c
    else None
  end.

Definition text_alphabet : pystr := digit_list ++ all_letters ++ u "+-*/^!.|\(){}[] ".
Fixpoint prefixes (s : pystr) : list pystr := [] :: match s with [] => [] | c :: s' => map (cons c) (prefixes s') end.
Definition places : list place :=
  dedup place place_eqb ([Fresh; Gap; Digit; Point; Caret; Done] ++
    map (fun p => Cmd p false) (flat_map prefixes (commands false)) ++ map (fun p => Cmd p true) (flat_map prefixes (commands true))).
Definition go : place -> pystr -> option place := run place text_alphabet move.
Lemma go_app q s t : go q (s ++ t) = match go q s with Some q' => go q' t | None => None end.
Proof. apply run_app. Qed.
Lemma places_closed : closed_states place place_eqb places text_alphabet move = true.
Proof. vm_compute. reflexivity. Qed.
Lemma latex_undisturbed : undisturbed place place_eqb places text_alphabet move = true.
Proof. vm_compute. reflexivity. Qed.
(** a word of small letters, in either case *)
Fixpoint caseless (p : pystr) : regex :=
  match p with [] => REps | c :: p' => RSeq (RChr (COr (CLit c) (CLit (c - 32)))) (caseless p') end.
Lemma latex_no_words : forallb (dead place place_eqb places text_alphabet move) [rs "inf"; rs "nan"; rs "matrix"; rs "\cup"; rs "\cap"; caseless (u "inf"); caseless (u "nan")] = true.
Proof. vm_compute. reflexivity. Qed.

(** ** Which expressions *)
Definition unit_initial (c : N) : bool := existsb (fun x => match x with d :: _ => d =? c | [] => false end) UNIT_SHORT_LIST.
Definition spaced_op (o : op) : bool := match o with Cdot | Times | Obelus | Modulo => true | _ => false end.
(** a property of what is written first, unless that is a parenthesis *)
Definition at_lead (l : nat) (f : arith -> bool) (e : arith) : bool := Nat.leb l (prec e) && f e.
(** begins with \frac *)
Fixpoint frac_first (e : arith) : bool :=
  match e with
  | Frac _ _ => true
  | Bin o a _ => at_lead (op_prec o) frac_first a
  | Fact a => at_lead 4 frac_first a
  | Pow a _ => at_lead 6 frac_first a
  | _ => false
  end.
(** begins with a letter that also begins a unit *)
Fixpoint unit_first (e : arith) : bool :=
  match e with
  | Sym [c] => unit_initial c || existsb unit_initial (lower_cp c)
  | Exp _ => true
  | Bin o a _ => at_lead (op_prec o) unit_first a
  | Fact a => at_lead 4 unit_first a
  | Pow a _ => at_lead 6 unit_first a
  | _ => false
  end.
(** Lower-case letters and Greek letters; no percentages and no colons; no number directly before a
    fraction (that would be a mixed number); no letter that begins a unit after a command. *)
Fixpoint plain (e : arith) : Prop :=
  match e with
  | Num _ | Dec _ _ | Pi => True
  | Pct _ => False
  | Sym x => In x greeks \/ exists c, x = [c] /\ In c lower_letters
  | Bin o a b => o <> Colon /\ plain a /\ plain b /\ (spaced_op o = true -> at_lead (S (op_prec o)) unit_first b = false)
  | Scale _ a => plain a /\ at_lead 4 frac_first a = false
  | Pow a b | Frac a b | Binom a b | Root a b => plain a /\ plain b
  | Neg a | Fact a | Exp a | Sqrt a | Abs a | Fn _ a => plain a
  | Floor a | Ceil a => plain a /\ unit_first a = false
  | Group _ | Juxt _ _ => False
  end.
(** Letters of either case and Greek letters; no percentages and no colons; no number directly before a
    fraction (that would be a mixed number); no letter that begins a unit after a command. *)
Fixpoint printable (e : arith) : Prop :=
  match e with
  | Num _ | Dec _ _ | Pi => True
  | Pct _ => False
  | Sym x => In x greeks \/ exists c, x = [c] /\ In c all_letters
  | Bin o a b => o <> Colon /\ printable a /\ printable b /\ (spaced_op o = true -> at_lead (S (op_prec o)) unit_first b = false)
  | Scale _ a => printable a /\ at_lead 4 frac_first a = false
  | Pow a b | Frac a b | Binom a b | Root a b => printable a /\ printable b
  | Neg a | Fact a | Exp a | Sqrt a | Abs a | Fn _ a => printable a
  | Floor a | Ceil a => printable a /\ unit_first a = false
  | Group _ | Juxt _ _ => False
  end.
(** A number, with or without a sign *)
Definition literal (e : arith) : bool :=
  match e with Num _ | Dec _ _ | Neg (Num _) | Neg (Dec _ _) => true | _ => false end.

(** ** The automaton reads them *)
Definition end_places : list place := [Digit; Done] ++ map (fun p => Cmd p false) ended_cmds ++ map (fun p => Cmd p true) ended_cmds.
(** where a command or a space precedes *)
Definition gap_places : list place := Gap :: map (fun p => Cmd p false) spaced_cmds ++ map (fun p => Cmd p true) spaced_cmds.
Definition ready (q : place) (digit : bool) (e : arith) : Prop :=
  q = Fresh \/ In q gap_places /\ unit_first e = false \/ q = Digit /\ digit = false /\ (3 <= prec e)%nat /\ frac_first e = false.
Definition reads_to (q : place) (s : pystr) (q' : place) : Prop := go q s = Some q'.
Definition finishes (q : place) (s : pystr) : Prop := exists q', go q s = Some q' /\ In q' end_places.
Definition goes (q : place) (s : pystr) (q' : place) : bool := match go q s with Some p => place_eqb p q' | None => false end.
Lemma goes_ok q s q' : goes q s q' = true -> go q s = Some q'.
Proof. unfold goes. destruct (go q s); [|discriminate]. intro H. apply place_eqb_ok in H. congruence. Qed.
Definition ends_b (q : place) (s : pystr) : bool := match go q s with Some p => has place place_eqb p end_places | None => false end.
Lemma ends_ok q s : ends_b q s = true -> finishes q s.
Proof. unfold ends_b, finishes. destruct (go q s) as [p|]; [|discriminate]. intro H. exists p. split; [reflexivity|]. apply (has_in place place_eqb place_eqb_ok), H. Qed.

(** Tables: what opens an operand, what continues one *)
Definition start_places : list place := Fresh :: gap_places.
Definition openings : list pystr :=
  map u ["("; "\binom{"; "\sqrt{"; "\sqrt["; "\left|"]%string ++ map (fun f => 92 :: f ++ [40]) functions.
Lemma t_open : forallb (fun q => forallb (fun w => goes q w Fresh) openings) (Digit :: start_places) = true.
Proof. vm_compute. reflexivity. Qed.
Lemma t_frac : forallb (fun q => goes q (u "\frac{") Fresh && goes q (u "-") Fresh) start_places = true.
Proof. vm_compute. reflexivity. Qed.
Lemma t_exp : goes Fresh (u "e^{") Fresh && goes Digit (u "e^{") Fresh = true.
Proof. vm_compute. reflexivity. Qed.
Lemma t_floor gap : gap = [] \/ gap = [32] -> forall q, In q (Digit :: start_places) -> forall w, In w [u "\lfloor"; u "\lceil"] ->
  exists q', go q (w ++ gap) = Some q' /\ In q' gap_places.
Proof.
  assert (T : forallb (fun gap => forallb (fun q => forallb (fun w => match go q (w ++ gap) with Some p => has place place_eqb p gap_places | None => false end)
    [u "\lfloor"; u "\lceil"]) (Digit :: start_places)) [[]; [32]] = true) by (vm_compute; reflexivity).
  intros Hg q Hq w Hw. rewrite forallb_forall in T. specialize (T gap ltac:(destruct Hg as [->| ->]; cbn; tauto)).
  rewrite forallb_forall in T. specialize (T q Hq). rewrite forallb_forall in T. specialize (T w Hw).
  destruct (go q (w ++ gap)) as [p|]; [|discriminate]. exists p. split; [reflexivity|]. apply (has_in place place_eqb place_eqb_ok), T.
Qed.
Lemma t_greek : forallb (fun q => forallb (ends_b q) (u "\pi" :: greeks)) (Digit :: start_places) = true.
Proof. vm_compute. reflexivity. Qed.
Lemma t_letter : forallb (fun c => ends_b Fresh [c] && ends_b Digit [c]) all_letters = true.
Proof. vm_compute. reflexivity. Qed.
Lemma t_gap_letter : forallb (fun q => forallb (fun c => unit_initial c || existsb unit_initial (lower_cp c) || ends_b q [c]) all_letters) gap_places = true.
Proof. vm_compute. reflexivity. Qed.
Definition continuations : list pystr := map u ["+"; "-"; "*"; "/"; "^{"; "}{"; "]{"]%string.
Definition closers : list pystr := map u ["!"; ")"; "}"; "\right|"; "\rfloor"; "\rceil"]%string.
Lemma t_continue : forallb (fun q => forallb (fun w => goes q w Fresh) continuations) end_places = true.
Proof. vm_compute. reflexivity. Qed.
Lemma t_close : forallb (fun q => forallb (ends_b q) closers) end_places = true.
Proof. vm_compute. reflexivity. Qed.
Lemma t_spaced_op gap : gap = [] \/ gap = [32] -> forall q, In q end_places -> forall w, In w [u "\cdot"; u "\times"; u "\div"; u "\mod"] ->
  exists q', go q (w ++ gap) = Some q' /\ In q' gap_places.
Proof.
  assert (T : forallb (fun gap => forallb (fun q => forallb (fun w => match go q (w ++ gap) with Some p => has place place_eqb p gap_places | None => false end)
    [u "\cdot"; u "\times"; u "\div"; u "\mod"]) end_places) [[]; [32]] = true) by (vm_compute; reflexivity).
  intros Hg q Hq w Hw. rewrite forallb_forall in T. specialize (T gap ltac:(destruct Hg as [->| ->]; cbn; tauto)).
  rewrite forallb_forall in T. specialize (T q Hq). rewrite forallb_forall in T. specialize (T w Hw).
  destruct (go q (w ++ gap)) as [p|]; [|discriminate]. exists p. split; [reflexivity|]. apply (has_in place place_eqb place_eqb_ok), T.
Qed.
Lemma t_digit : forallb (fun q => forallb (fun c => goes q [c] Digit) digit_list) (Digit :: Point :: start_places) = true.
Proof. vm_compute. reflexivity. Qed.

Section Reading.
Variable gap : pystr.
Hypothesis Hgap : gap = [] \/ gap = [32].
Local Notation body := (Arith.body gap).
Definition level (l : nat) (e : arith) : pystr := if Nat.leb l (prec e) then body e else parens (body e).

Lemma body_first e : wf e -> exists c r, body e = c :: r /\ c <> 32.
Proof.
  intro W. pose proof (src_toks gap e [] W) as E. cbn [app] in E. destruct (begins_src _ _ _ (toks_begin gap e [] W)) as (w & r & Hw & Es).
  rewrite E in Es. cbn [app] in Es.
  assert (T : forallb (fun w => match snd w with c :: _ => negb (c =? 32) | [] => false end) starters = true) by (vm_compute; reflexivity).
  rewrite forallb_forall in T. specialize (T w Hw). cbv beta in T. destruct w as [k [|c x]]; cbn [snd] in *; [discriminate|]. exists c, (x ++ r).
  split; [exact Es|]. apply negb_true_iff, N.eqb_neq in T. exact T.
Qed.
Lemma level_first l e : wf e -> exists c r, level l e = c :: r /\ c <> 32.
Proof. intro W. unfold level. destruct (Nat.leb _ _); [apply body_first, W|]. exists 40, (body e ++ u ")"). split; [reflexivity|discriminate]. Qed.
Lemma digit_first_level l e t : wf e -> digit_first (level l e ++ t) = digit_first (level l e).
Proof. intro W. destruct (level_first l e W) as (c & r & -> & _). reflexivity. Qed.

Lemma go_step q s t q' : go q s = Some q' -> finishes q' t -> finishes q (s ++ t).
Proof. intros H (p & H1 & H2). exists p. split; [|exact H2]. rewrite go_app, H. exact H1. Qed.
Lemma finish_then q s t : finishes q s -> (forall q', In q' end_places -> finishes q' t) -> finishes q (s ++ t).
Proof. intros (p & H1 & H2) K. apply (go_step q s t p H1), K, H2. Qed.
Lemma finish_into q s w t : finishes q s -> In w continuations -> finishes Fresh t -> finishes q (s ++ w ++ t).
Proof.
  intros F Hw Ht. apply finish_then; [exact F|]. intros p Hp. apply (go_step p w t Fresh); [|exact Ht]. apply goes_ok.
  pose proof t_continue as T. rewrite forallb_forall in T. specialize (T p Hp). rewrite forallb_forall in T. apply T, Hw.
Qed.
Lemma finish_close q s w : finishes q s -> In w closers -> finishes q (s ++ w).
Proof.
  intros F Hw. apply finish_then; [exact F|]. intros p Hp. apply ends_ok.
  pose proof t_close as T. rewrite forallb_forall in T. specialize (T p Hp). rewrite forallb_forall in T. apply T, Hw.
Qed.
Lemma opens q w t : In q (Digit :: start_places) -> In w openings -> finishes Fresh t -> finishes q (w ++ t).
Proof.
  intros Hq Hw F. apply (go_step q w t Fresh); [|exact F]. apply goes_ok.
  pose proof t_open as T. rewrite forallb_forall in T. specialize (T q Hq). rewrite forallb_forall in T. apply T, Hw.
Qed.
Lemma ready_place q d e : ready q d e -> In q (Digit :: start_places).
Proof. intros [->|[[H _]|[-> _]]]; [right; left; reflexivity|right; right; exact H|left; reflexivity]. Qed.
Lemma ready_fresh d e : ready Fresh d e.
Proof. left; reflexivity. Qed.
Lemma go_digits q ds : In q (Digit :: Point :: start_places) -> numeral ds -> go q ds = Some Digit.
Proof.
  intros Hq [F Ne]. destruct ds as [|c r]; [congruence|]. pose proof t_digit as T. rewrite forallb_forall in T.
  assert (D : forall p c, In p (Digit :: Point :: start_places) -> ascii_digit c -> go p [c] = Some Digit).
  { intros p d Hp Hd. apply goes_ok. specialize (T p Hp). rewrite forallb_forall in T. apply T.
    unfold ascii_digit in Hd. assert (E : d = 48 \/ d = 49 \/ d = 50 \/ d = 51 \/ d = 52 \/ d = 53 \/ d = 54 \/ d = 55 \/ d = 56 \/ d = 57) by lia.
    repeat destruct E as [->|E]; subst; cbn; tauto. }
  clear Ne T. revert q c Hq F. induction r as [|d r IH]; intros q c Hq F; inversion F as [|? ? Hc Fr]; subst; [apply D; assumption|].
  change (c :: d :: r) with ([c] ++ (d :: r)). rewrite go_app, (D q c Hq Hc). apply IH; [left; reflexivity|exact Fr].
Qed.
Lemma start_more q : In q (Digit :: start_places) -> In q (Digit :: Point :: start_places).
Proof. intros [H|H]; [left; exact H|right; right; exact H]. Qed.
Lemma digit_end : In Digit end_places.
Proof. left; reflexivity. Qed.
Ltac mem := cbn; tauto.

Lemma run_body e : forall q, wf e -> printable e -> ready q (digit_first (body e)) e -> finishes q (body e).
Proof.
  assert (LV : forall l e q, (forall q, wf e -> printable e -> ready q (digit_first (body e)) e -> finishes q (body e)) -> wf e -> printable e ->
    In q (Digit :: start_places) -> (Nat.leb l (prec e) = true -> ready q (digit_first (level l e)) e) -> finishes q (level l e)).
  { intros l e0 q IH W P Hq R. unfold level in *. destruct (Nat.leb l (prec e0)); [apply IH; auto|].
    unfold parens. apply opens; [exact Hq|mem|]. apply finish_close; [|mem]. apply IH; [exact W|exact P|apply ready_fresh]. }
  assert (IN : forall e, (forall q, wf e -> printable e -> ready q (digit_first (body e)) e -> finishes q (body e)) -> wf e -> printable e -> finishes Fresh (body e)).
  { intros e0 IH W P. apply IH; [exact W|exact P|apply ready_fresh]. }
  assert (BR : forall e w, (forall q, wf e -> printable e -> ready q (digit_first (body e)) e -> finishes q (body e)) -> wf e -> printable e -> In w closers -> finishes Fresh (body e ++ w)).
  { intros e0 w IH W P Hw. apply finish_close; [apply IN; assumption|exact Hw]. }
  (* what is written first *)
  assert (RD : forall l e q g t, wf e -> ready q (digit_first (level l e ++ t)) g ->
     (unit_first g = false -> at_lead l unit_first e = false) -> (frac_first g = false -> at_lead l frac_first e = false) -> (3 <= prec g -> 3 <= l)%nat ->
     Nat.leb l (prec e) = true -> ready q (digit_first (level l e)) e).
  { intros l e0 q g t W R Hu Hf Hp Hl. rewrite digit_first_level in R by exact W. destruct R as [->|[[Hq U]|(-> & D & Pr & Fr)]].
    - apply ready_fresh.
    - right; left. split; [exact Hq|]. specialize (Hu U). unfold at_lead in Hu. rewrite Hl in Hu. exact Hu.
    - right; right. split; [reflexivity|]. split; [exact D|]. apply Nat.leb_le in Hl. specialize (Hf Fr). unfold at_lead in Hf.
      rewrite (proj2 (Nat.leb_le _ _) Hl) in Hf. split; [specialize (Hp Pr); lia|exact Hf]. }
  induction e; intros q W P R; cbn [wf printable] in W, P; pose proof (ready_place _ _ _ R) as Hq.
  - cbn [Arith.body]. exists Digit. split; [apply go_digits; [apply start_more, Hq|exact W]|apply digit_end].
  - cbn [Arith.body]. apply (go_step q ds _ Digit); [apply go_digits; [apply start_more, Hq|apply W]|].
    apply (go_step Digit (u ".") fs Point); [reflexivity|]. exists Digit. split; [apply go_digits; [mem|apply W]|apply digit_end].
  - contradiction.
  - cbn [Arith.body]. destruct P as [P|(c & -> & P)].
    + apply ends_ok. pose proof t_greek as T. rewrite forallb_forall in T. specialize (T q Hq). rewrite forallb_forall in T. apply T. right; exact P.
    + destruct R as [->|[[Hg U]|(-> & _)]].
      * apply ends_ok. pose proof t_letter as T. rewrite forallb_forall in T. specialize (T c P). apply andb_true_iff in T. apply T.
      * apply ends_ok. pose proof t_gap_letter as T. rewrite forallb_forall in T. specialize (T q Hg). rewrite forallb_forall in T. specialize (T c P).
        cbn [unit_first] in U. rewrite U in T. exact T.
      * apply ends_ok. pose proof t_letter as T. rewrite forallb_forall in T. specialize (T c P). apply andb_true_iff in T. apply T.
  - cbn [Arith.body]. apply ends_ok. pose proof t_greek as T. rewrite forallb_forall in T. specialize (T q Hq). rewrite forallb_forall in T. apply T. left; reflexivity.
  - destruct W as [W1 W2]. destruct P as (Pc & P1 & P2 & Pu).
    change (finishes q (level (op_prec o) e1 ++ op_latex gap o ++ level (S (op_prec o)) e2)).
    change (body (Bin o e1 e2)) with (level (op_prec o) e1 ++ op_latex gap o ++ level (S (op_prec o)) e2) in R.
    assert (F1 : finishes q (level (op_prec o) e1)).
    { apply LV; auto. apply (RD _ _ _ _ _ W1 R); auto. }
    assert (F2 : finishes Fresh (level (S (op_prec o)) e2)) by (apply LV; auto; [mem|intros _; apply ready_fresh]).
    destruct (spaced_op o) eqn:So.
    + apply finish_then; [exact F1|]. intros p Hp. specialize (Pu eq_refl).
      assert (X : exists q', go p (op_latex gap o) = Some q' /\ In q' gap_places) by (destruct o; try discriminate So; cbn [op_latex]; apply (t_spaced_op gap Hgap p Hp); mem).
      destruct X as (q' & X1 & X2). apply (go_step p _ _ q' X1). apply LV; auto; [right; right; exact X2|].
      intro L. right; left. split; [exact X2|]. unfold at_lead in Pu. rewrite L in Pu. exact Pu.
    + apply finish_into; [exact F1| |exact F2]. destruct o; try discriminate So; try congruence; mem.
  - change (finishes q (u "-" ++ level 3 e)). apply (go_step q (u "-") _ Fresh).
    + apply goes_ok. pose proof t_frac as T. rewrite forallb_forall in T. destruct R as [->|[[Hg U]|(-> & _ & L & _)]]; [| |cbn in L; lia].
      * specialize (T Fresh ltac:(left; reflexivity)). apply andb_true_iff in T. apply T.
      * specialize (T q ltac:(right; exact Hg)). apply andb_true_iff in T. apply T.
    + apply LV; auto; [mem|intros _; apply ready_fresh].
  - destruct W as [Wd W]. destruct P as [P Pf].
    change (finishes q (ds ++ (if digit_first (level 4 e) then parens (body e) else level 4 e))).
    apply (go_step q ds _ Digit); [apply go_digits; [apply start_more, Hq|exact Wd]|].
    destruct (digit_first (level 4 e)) eqn:Ed.
    + unfold parens. apply opens; [mem|mem|]. apply BR; auto. mem.
    + apply LV; auto; [mem|]. intro L. right; right. split; [reflexivity|]. split; [exact Ed|]. unfold at_lead in Pf. rewrite L in Pf. apply Nat.leb_le in L. split; [lia|exact Pf].
  - change (finishes q (level 4 e ++ u "!")). change (body (Fact e)) with (level 4 e ++ u "!") in R. apply finish_close; [|mem].
    apply LV; auto. apply (RD _ _ _ _ _ W R); auto. 
  - destruct W as [W1 W2]. destruct P as [P1 P2]. change (finishes q (level 6 e1 ++ u "^{" ++ body e2 ++ u "}")).
    change (body (Pow e1 e2)) with (level 6 e1 ++ u "^{" ++ body e2 ++ u "}") in R. apply finish_into; [|mem|apply BR; (assumption || mem)].
    apply LV; auto. apply (RD _ _ _ _ _ W1 R); auto.
  - change (finishes q (u "e^{" ++ body e ++ u "}")). pose proof t_exp as T. apply andb_true_iff in T. destruct T as [T1 T2].
    apply (go_step q (u "e^{") _ Fresh); [|apply BR; (assumption || mem)]. destruct R as [->|[[Hg U]|(-> & _)]]; [apply goes_ok, T1|discriminate U|apply goes_ok, T2].
  - destruct W as [W1 W2]. destruct P as [P1 P2]. change (finishes q (u "\frac{" ++ body e1 ++ u "}{" ++ body e2 ++ u "}")).
    apply (go_step q (u "\frac{") _ Fresh); [|apply finish_into; [apply IN; auto|mem|apply BR; (assumption || mem)]].
    apply goes_ok. pose proof t_frac as T. rewrite forallb_forall in T. destruct R as [->|[[Hg U]|(-> & _ & _ & Fr)]]; [| |discriminate Fr].
    * specialize (T Fresh ltac:(left; reflexivity)). apply andb_true_iff in T. apply T.
    * specialize (T q ltac:(right; exact Hg)). apply andb_true_iff in T. apply T.
  - destruct W as [W1 W2]. destruct P as [P1 P2]. change (finishes q (u "\binom{" ++ body e1 ++ u "}{" ++ body e2 ++ u "}")).
    apply opens; [exact Hq|mem|]. apply finish_into; [apply IN; auto|mem|apply BR; (assumption || mem)].
  - change (finishes q (u "\sqrt{" ++ body e ++ u "}")). apply opens; [exact Hq|mem|]. apply BR; (assumption || mem).
  - destruct W as [W1 W2]. destruct P as [P1 P2]. change (finishes q (u "\sqrt[" ++ body e1 ++ u "]{" ++ body e2 ++ u "}")).
    apply opens; [exact Hq|mem|]. apply finish_into; [apply IN; auto|mem|apply BR; (assumption || mem)].
  - change (finishes q (u "\left|" ++ body e ++ u "\right|")). apply opens; [exact Hq|mem|]. apply BR; (assumption || mem).
  - destruct P as [P U]. change (finishes q (u "\lfloor" ++ gap ++ body e ++ u "\rfloor")). rewrite app_assoc.
    destruct (t_floor gap Hgap q Hq (u "\lfloor") ltac:(mem)) as (q' & X1 & X2). apply (go_step q _ _ q' X1). apply finish_close; [|mem].
    apply IHe; auto. right; left. auto.
  - destruct P as [P U]. change (finishes q (u "\lceil" ++ gap ++ body e ++ u "\rceil")). rewrite app_assoc.
    destruct (t_floor gap Hgap q Hq (u "\lceil") ltac:(mem)) as (q' & X1 & X2). apply (go_step q _ _ q' X1). apply finish_close; [|mem].
    apply IHe; auto. right; left. auto.
  - destruct W as [Wf W]. change (finishes q (u "\" ++ f ++ u "(" ++ body e ++ u ")")).
    replace (u "\" ++ f ++ u "(" ++ body e ++ u ")") with ((92 :: f ++ [40]) ++ body e ++ u ")") by (cbn [app]; rewrite <- app_assoc; reflexivity).
    apply opens; [exact Hq| |apply BR; (assumption || mem)]. apply in_or_app. right. apply (in_map (fun f => 92 :: f ++ [40])), Wf.
  - contradiction.
  - contradiction.
Qed.

(** ** Spaces at the ends, numbers *)
Lemma fresh_place : In Fresh places.
Proof.
  assert (H : has place place_eqb Fresh places = true) by (vm_compute; reflexivity).
  exact (proj1 (has_in place place_eqb place_eqb_ok Fresh places) H).
Qed.
Definition space_moves : bool :=
  forallb (fun c => if is_space c then match move Fresh c with None => true | Some _ => false end &&
    forallb (fun q => match move q c with Some p => negb (has place place_eqb p end_places) | None => true end) places else true) text_alphabet.
Lemma space_moves_ok : space_moves = true.
Proof. vm_compute. reflexivity. Qed.
Lemma finishes_strip s : finishes Fresh s -> strip s = s.
Proof.
  intros (q & H & E). pose proof space_moves_ok as T. unfold space_moves in T. rewrite forallb_forall in T.
  apply strip_by_id.
  - destruct s as [|c s]; [exact I|]. destruct (is_space c) eqn:Ec; [|reflexivity]. exfalso. unfold go in H. cbn [run] in H.
    destruct (mem_cp text_alphabet c) eqn:M; [|discriminate]. specialize (T c (proj1 (mem_in _ _) M)). rewrite Ec in T.
    destruct (move Fresh c); [discriminate T|discriminate H].
  - destruct (rev s) as [|c r] eqn:Er; [exact I|]. destruct (is_space c) eqn:Ec; [|reflexivity]. exfalso.
    assert (Es : s = rev r ++ [c]) by (rewrite <- (rev_involutive s), Er; reflexivity). rewrite Es, go_app in H.
    destruct (go Fresh (rev r)) as [p|] eqn:Ep; [|discriminate]. unfold go in H. cbn [run] in H.
    destruct (mem_cp text_alphabet c) eqn:M; [|discriminate]. specialize (T c (proj1 (mem_in _ _) M)). rewrite Ec in T.
    apply andb_true_iff in T. destruct T as [_ T]. rewrite forallb_forall in T.
    specialize (T p (run_states place place_eqb place_eqb_ok places text_alphabet move places_closed _ _ _ fresh_place Ep)).
    destruct (move p c) as [p'|]; [|discriminate]. injection H as ->. apply (has_in place place_eqb place_eqb_ok) in E. rewrite E in T. discriminate.
Qed.
Lemma finishes_readable s : finishes Fresh s -> readable place places text_alphabet move s.
Proof. intros (q & H & _). exists Fresh, q. split; [exact fresh_place|exact H]. Qed.
Definition simple_b (c : N) : bool := (c <? 128) && negb (c =? 95).
Lemma alphabet_simple : forallb simple_b text_alphabet = true.
Proof. vm_compute. reflexivity. Qed.
Lemma finishes_simple s c : finishes Fresh s -> In c s -> simple_cp c.
Proof.
  intros F Hc. pose proof (readable_alpha _ _ _ _ s c (finishes_readable s F) Hc) as H. pose proof alphabet_simple as T. rewrite forallb_forall in T.
  specialize (T c H). unfold simple_b in T. apply andb_true_iff in T. destruct T as [T1 T2].
  split; [apply N.ltb_lt, T1|apply N.eqb_neq, negb_true_iff, T2].
Qed.
(** Lower case goes character by character. *)
Definition small (c : N) : N := if (65 <=? c) && (c <=? 90) then c + 32 else c.
Lemma alphabet_small : forallb (fun c => str_eqb (lower_cp c) [small c]) text_alphabet = true.
Proof. vm_compute. reflexivity. Qed.
Lemma lower_map s : (forall c, In c s -> In c text_alphabet) -> lower s = map small s.
Proof.
  intro H. pose proof alphabet_small as T. rewrite forallb_forall in T. induction s as [|c s IH]; [reflexivity|].
  unfold lower in *. cbn [flat_map map]. rewrite IH by (intros; apply H; right; assumption).
  rewrite (proj1 (str_eqb_eq _ _) (T c (H c (or_introl eq_refl)))). reflexivity.
Qed.
Lemma caseless_den p w : map small w = p -> den (caseless p) w.
Proof.
  revert w. induction p as [|c p IH]; intros [|d w] E; try discriminate; [reflexivity|]. injection E as Ec Ew. cbn [caseless den].
  exists [d], w. split; [reflexivity|]. split; [|apply IH, Ew]. exists d. split; [reflexivity|]. cbn [cls_in]. unfold small in Ec.
  apply orb_true_iff. rewrite !N.eqb_eq. destruct ((65 <=? d) && (d <=? 90)) eqn:Ed; [right|left]; lia.
Qed.
Lemma no_word p s : dead place place_eqb places text_alphabet move (caseless p) = true -> finishes Fresh s -> contains p (lower s) = false.
Proof.
  intros D F. pose proof (finishes_readable s F) as R. destruct (contains p (lower s)) eqn:E; [|reflexivity]. exfalso.
  rewrite lower_map in E by (intros c Hc; exact (readable_alpha _ _ _ _ s c R Hc)).
  apply contains_spec in E. destruct E as (a & b & E). apply map_eq_app in E. destruct E as (a' & w & -> & _ & E).
  apply map_eq_app in E. destruct E as (w' & b' & -> & E & _).
  apply (dead_sound place place_eqb place_eqb_ok places text_alphabet move places_closed (caseless p) w' (a' ++ w' ++ b') D R); [exists a', b'; reflexivity|].
  apply caseless_den, E.
Qed.

(** Sums of numbers; everything else has a character of no number *)
Fixpoint sumlike (e : arith) : bool :=
  match e with
  | Num _ | Dec _ _ => true
  | Neg a => Nat.leb 3 (prec a) && sumlike a
  | Bin Plus a b | Bin Minus a b => sumlike a && Nat.leb 1 (prec b) && sumlike b
  | _ => false
  end.
Definition nonfloat (s : pystr) : Prop := exists c, In c s /\ mem_cp float_chars_list c = false.
Lemma nonfloat_l s t : nonfloat s -> nonfloat (s ++ t).
Proof. intros (c & H & E). exists c. split; [apply in_or_app; left; exact H|exact E]. Qed.
Lemma nonfloat_r s t : nonfloat t -> nonfloat (s ++ t).
Proof. intros (c & H & E). exists c. split; [apply in_or_app; right; exact H|exact E]. Qed.
Lemma nonfloat_level l e : (sumlike e = false -> nonfloat (body e)) -> Nat.leb l (prec e) && sumlike e = false -> nonfloat (level l e).
Proof.
  intros IH H. unfold level. destruct (Nat.leb l (prec e)); [apply IH, H|]. exists 40. split; [left; reflexivity|reflexivity].
Qed.
Lemma sym_nonfloat x : In x symbols -> nonfloat x.
Proof.
  assert (T : forallb (fun x => existsb (fun c => negb (mem_cp float_chars_list c)) x) symbols = true) by (vm_compute; reflexivity).
  rewrite forallb_forall in T. intro H. specialize (T x H). apply existsb_exists in T. destruct T as (c & Hc & E). exists c. split; [exact Hc|apply negb_true_iff, E].
Qed.
Lemma compound_nonfloat e : wf e -> printable e -> sumlike e = false -> nonfloat (body e).
Proof.
  assert (BS : forall s, nonfloat (92 :: s)) by (intro s; exists 92; split; [left; reflexivity|reflexivity]).
  induction e; intros W P H; cbn [wf printable] in W, P; try discriminate H; try apply BS.
  - contradiction.
  - apply sym_nonfloat, W.
  - destruct W as [W1 W2]. destruct P as (_ & P1 & P2 & _).
    change (nonfloat (level (op_prec o) e1 ++ op_latex gap o ++ level (S (op_prec o)) e2)).
    assert (OP : forall c, In c (op_latex gap o) -> mem_cp float_chars_list c = false -> nonfloat (level (op_prec o) e1 ++ op_latex gap o ++ level (S (op_prec o)) e2)).
    { intros c Hc E. apply nonfloat_r, nonfloat_l. exists c. auto. }
    assert (SM : sumlike e1 && Nat.leb 1 (prec e2) && sumlike e2 = false -> op_prec o = 0%nat -> nonfloat (level (op_prec o) e1 ++ op_latex gap o ++ level (S (op_prec o)) e2)).
    { intros E Eo. rewrite Eo. destruct (sumlike e1) eqn:E1.
      - apply nonfloat_r, nonfloat_r, nonfloat_level; auto.
      - apply nonfloat_l, nonfloat_level; [auto|]. rewrite E1. apply andb_false_r. }
    destruct o; try (apply SM; [exact H|reflexivity]); try (apply (OP 92); [left; reflexivity|reflexivity]).
    + apply (OP 42); [left; reflexivity|reflexivity].
    + apply (OP 47); [left; reflexivity|reflexivity].
    + apply (OP 58); [left; reflexivity|reflexivity].
  - change (nonfloat (u "-" ++ level 3 e)). apply nonfloat_r, nonfloat_level; auto.
  - destruct W as [Wd W]. destruct P as [P _]. change (nonfloat (ds ++ (if digit_first (level 4 e) then parens (body e) else level 4 e))).
    apply nonfloat_r. destruct (digit_first (level 4 e)) eqn:Ed; [exists 40; split; [left; reflexivity|reflexivity]|].
    apply nonfloat_level; [auto|]. destruct (Nat.leb 4 (prec e)) eqn:El; [|reflexivity]. cbn [andb]. unfold level in Ed. rewrite El in Ed.
    destruct e; try reflexivity; cbn [wf prec] in *; try (exfalso; apply Nat.leb_le in El; lia).
    + exfalso. destruct W as [F N]. cbn [Arith.body] in Ed. destruct ds0 as [|c r]; [congruence|]. inversion F as [|? ? Hc _]; subst. unfold ascii_digit in Hc. cbn in Ed.
      rewrite (proj2 (N.leb_le _ _) (proj1 Hc)), (proj2 (N.leb_le _ _) (proj2 Hc)) in Ed. discriminate.
    + exfalso. destruct W as [[F N] _]. cbn [Arith.body] in Ed. destruct ds0 as [|c r]; [congruence|]. inversion F as [|? ? Hc _]; subst. unfold ascii_digit in Hc. cbn in Ed.
      rewrite (proj2 (N.leb_le _ _) (proj1 Hc)), (proj2 (N.leb_le _ _) (proj2 Hc)) in Ed. discriminate.
    + destruct o; cbn in El; discriminate.
  - change (nonfloat (level 4 e ++ u "!")). apply nonfloat_r. exists 33. split; [left; reflexivity|reflexivity].
  - change (nonfloat (level 6 e1 ++ u "^{" ++ body e2 ++ u "}")). apply nonfloat_r. exists 94. split; [left; reflexivity|reflexivity].
  - change (nonfloat (u "e^{" ++ body e ++ u "}")). exists 94. split; [right; left; reflexivity|reflexivity].
  - contradiction.
  - contradiction.
Qed.
Lemma digits_no ds c : numeral ds -> is_ascii_digit c = false -> ~ In c ds.
Proof. intros [F _] H Hc. rewrite Forall_forall in F. specialize (F c Hc). unfold ascii_digit in F. unfold is_ascii_digit in H.
  rewrite (proj2 (N.leb_le _ _) (proj1 F)), (proj2 (N.leb_le _ _) (proj2 F)) in H. discriminate. Qed.
Lemma sumlike_no x e : x = 101 \/ x = 69 -> wf e -> sumlike e = true -> ~ In x (body e).
Proof.
  intro Hx. assert (Dx : is_ascii_digit x = false) by (destruct Hx; subst; reflexivity).
  assert (Px : x <> 46 /\ x <> 43 /\ x <> 45) by (destruct Hx; subst; repeat split; discriminate).
  induction e; intros W H; cbn [wf] in W; cbn [sumlike] in H; try discriminate H.
  - apply digits_no; [exact W|exact Dx].
  - cbn [Arith.body]. intro Hc. apply in_app_or in Hc. destruct Hc as [Hc|Hc]; [revert Hc; apply digits_no; [apply W|exact Dx]|].
    destruct Hc as [Hc|Hc]; [apply eq_sym in Hc; tauto|]. revert Hc. apply digits_no; [apply W|exact Dx].
  - destruct W as [W1 W2].
    assert (X : op_prec o = 0%nat /\ ~ In x (op_latex gap o) /\ sumlike e1 && Nat.leb 1 (prec e2) && sumlike e2 = true).
    { destruct o; try discriminate H; (split; [reflexivity|split; [intros [X|[]]; apply eq_sym in X; tauto|exact H]]). }
    destruct X as (Eo & No & X). apply andb_true_iff in X. destruct X as [X X3]. apply andb_true_iff in X. destruct X as [X1 X2].
    change (~ In x (level (op_prec o) e1 ++ op_latex gap o ++ level (S (op_prec o)) e2)). rewrite Eo. unfold level. rewrite X2. cbn [Nat.leb].
    intro Hc. apply in_app_or in Hc. destruct Hc as [Hc|Hc]; [exact (IHe1 W1 X1 Hc)|]. apply in_app_or in Hc. destruct Hc as [Hc|Hc]; [exact (No Hc)|exact (IHe2 W2 X3 Hc)].
  - apply andb_true_iff in H. destruct H as [H1 H2]. change (~ In x (u "-" ++ level 3 e)). unfold level. rewrite H1. intros [Hc|Hc]; [apply eq_sym in Hc; tauto|exact (IHe W H2 Hc)].
Qed.
Lemma sumlike_sign e : wf e -> literal e = false -> sumlike e = true -> In 43 (tl (body e)) \/ In 45 (tl (body e)).
Proof.
  intros W L H. destruct e; cbn [literal] in L; cbn [sumlike] in H; try discriminate.
  - destruct W as [W1 W2]. change (body (Bin o e1 e2)) with (level (op_prec o) e1 ++ op_latex gap o ++ level (S (op_prec o)) e2).
    destruct (level_first (op_prec o) e1 W1) as (c & r & -> & _). cbn [app tl].
    destruct o; try discriminate H; [left|right]; apply in_or_app; right; left; reflexivity.
  - exfalso. apply andb_true_iff in H. destruct H as [H1 H2]. destruct e; cbn [literal sumlike] in *; try discriminate. destruct o; discriminate.
Qed.
Lemma not_float e : wf e -> printable e -> literal e = false -> finishes Fresh (body e) -> py_float (body e) = None.
Proof.
  intros W P L F. destruct (py_float (body e)) as [f|] eqn:E; [|reflexivity]. exfalso.
  pose proof latex_no_words as T. cbn [forallb] in T. rewrite !andb_true_iff in T. destruct T as (_ & _ & _ & _ & _ & T1 & T2 & _).
  destruct (float_shape (body e) f) as [X1 X2]; auto.
  - intros c. apply finishes_simple, F.
  - apply finishes_strip, F.
  - apply no_word; assumption.
  - apply no_word; assumption.
  - destruct (sumlike e) eqn:Es.
    + destruct (X2 (sumlike_no 101 e (or_introl eq_refl) W Es) (sumlike_no 69 e (or_intror eq_refl) W Es)) as [Y1 Y2]. destruct (sumlike_sign e W L Es); contradiction.
    + destruct (compound_nonfloat e W P Es) as (c & Hc & Ec). apply X1, mem_in in Hc. congruence.
Qed.
End Reading.

(** ** Without the spaces *)
Lemma filter_idem {A} (f : A -> bool) l : filter f (filter f l) = filter f l.
Proof. induction l as [|x l IH]; [reflexivity|]. cbn [filter]. destruct (f x) eqn:E; [cbn [filter]; rewrite E, IH; reflexivity|exact IH]. Qed.
(** how a text begins and ends *)
Lemma level_start gap l e : wf e -> exists w r, In w starters /\ level gap l e = snd w ++ r.
Proof.
  intro W. unfold level. destruct (Nat.leb _ _).
  - destruct (begins_src _ _ _ (toks_begin gap e [] W)) as (w & r & Hw & Es). exists w, r. split; [exact Hw|]. rewrite (src_toks gap e [] W) in Es. exact Es.
  - exists w_lparen, (body gap e ++ u ")"). split; [|reflexivity]. assert (T : existsb (fun w : word => str_eqb (snd w) (u "(") && (fst w =? fst w_lparen)) starters = true) by (vm_compute; reflexivity).
    apply existsb_exists in T. destruct T as ([k x] & H & E). apply andb_true_iff in E. destruct E as [E1 E2]. apply str_eqb_eq in E1. apply N.eqb_eq in E2. cbn [fst snd] in *. subst. exact H.
Qed.
Definition last_chars : pystr := digit_list ++ all_letters ++ u "%!})|".
Lemma body_last gap e : wf e -> exists s c, body gap e = s ++ [c] /\ In c last_chars.
Proof.
  assert (AP : forall a t, (exists s c, t = s ++ [c] /\ In c last_chars) -> exists s c, a ++ t = s ++ [c] /\ In c last_chars).
  { intros a t (s & c & -> & H). exists (a ++ s), c. rewrite app_assoc. auto. }
  assert (ND : forall ds, numeral ds -> exists s c, ds = s ++ [c] /\ In c last_chars).
  { intros ds [F N]. destruct (exists_last N) as (s & c & ->). exists s, c. split; [reflexivity|]. apply Forall_app in F. destruct F as [_ F]. inversion F as [|? ? H _]; subst. unfold ascii_digit in H.
    assert (E : c = 48 \/ c = 49 \/ c = 50 \/ c = 51 \/ c = 52 \/ c = 53 \/ c = 54 \/ c = 55 \/ c = 56 \/ c = 57) by lia. apply mem_in. repeat destruct E as [->|E]; subst; reflexivity. }
  assert (CH : forall c, mem_cp last_chars c = true -> exists s c', [c] = s ++ [c'] /\ In c' last_chars).
  { intros c H. exists [], c. split; [reflexivity|apply mem_in, H]. }
  assert (LV : forall l e, (exists s c, body gap e = s ++ [c] /\ In c last_chars) -> exists s c, level gap l e = s ++ [c] /\ In c last_chars).
  { intros l e0 H. unfold level. destruct (Nat.leb _ _); [exact H|]. unfold parens. apply AP, AP, CH. reflexivity. }
  induction e; cbn [wf]; intro W; try (cbn [body]; do 4 (try apply AP); first [apply CH; reflexivity | fail]).
  - apply ND, W.
  - cbn [body]. apply AP, AP, ND, W.
  - cbn [body]. apply AP. exists [92], 37. split; [reflexivity|apply mem_in; reflexivity].
  - cbn [body]. assert (T : forallb (fun x => match x with [] => false | _ => mem_cp last_chars (last x 0) end) symbols = true) by (vm_compute; reflexivity). rewrite forallb_forall in T. specialize (T x W).
    destruct x as [|c x]; [discriminate|]. exists (removelast (c :: x)), (last (c :: x) 0). split; [apply app_removelast_last; discriminate|apply mem_in, T].
  - exists (u "\p"), 105. split; [reflexivity|apply mem_in; reflexivity].
  - apply AP, AP. apply (LV (S (op_prec o)) e2), IHe2, W.
  - apply AP. apply (LV 3%nat e), IHe, W.
  - apply AP. cbn [body]. destruct (digit_first _); [unfold parens; apply AP, AP, CH; reflexivity|apply (LV 4%nat e), IHe, W].
  - cbn [body]. apply AP, AP. exists (u "\right"), 124. split; [reflexivity|apply mem_in; reflexivity].
  - cbn [body]. apply AP, AP, AP. exists (u "\rfloo"), 114. split; [reflexivity|apply mem_in; reflexivity].
  - cbn [body]. apply AP, AP, AP. exists (u "\rcei"), 108. split; [reflexivity|apply mem_in; reflexivity].
  - change (exists s c, body gap (Juxt e1 e2) = s ++ [c] /\ In c last_chars). cbn [body]. cbv zeta. apply AP, AP.
    change (exists s c, (if digit_first (level gap 3 e2) then parens (body gap e2) else level gap 3 e2) = s ++ [c] /\ In c last_chars).
    destruct (digit_first (level gap 3 e2)); [unfold parens; apply AP, AP, CH; reflexivity|apply (LV 3%nat e2), IHe2, W].
Qed.
Definition right_level (gap : pystr) (b : arith) : pystr := if digit_first (level gap 3 b) then parens (body gap b) else level gap 3 b.
Lemma body_juxt gap a b : body gap (Juxt a b) =
  (if is_greek a || ends_name a && open_first (right_level gap b) || risky (body gap a) (right_level gap b) then parens (body gap a) else level gap 4 a) ++ gap ++ right_level gap b.
Proof. reflexivity. Qed.
Lemma right_start gap b : wf b -> exists w r, In w starters /\ right_level gap b = snd w ++ r.
Proof.
  intro W. unfold right_level. destruct (digit_first _); [|apply level_start, W].
  destruct (level_start gap 7 b W) as (w & r & H & E). exists w, r. split; [exact H|]. rewrite <- E. unfold level. destruct b as [| | | | |[]| | | | | | | | | | | | | | |]; reflexivity.
Qed.
(** a change of characters that leaves the beginning and the end of texts recognisable *)
Section Change.
Variables (F : pystr -> pystr) (gap gap' : pystr).
Hypothesis FA : forall s t, F (s ++ t) = F s ++ F t.
Hypothesis Fd : forall w r, In w starters -> digit_first (F (snd w ++ r)) = digit_first (snd w ++ r).
Hypothesis Fo : forall w r, In w starters -> open_first (F (snd w ++ r)) = open_first (snd w ++ r).
Hypothesis Fr : forall s c w r, In c last_chars -> In w starters -> risky (F (s ++ [c])) (F (snd w ++ r)) = risky (s ++ [c]) (snd w ++ r).
Hypothesis Fg : F gap = gap'.
Hypothesis Fp : forall s, F (parens s) = parens (F s).
Variable h : arith -> arith.
Hypothesis hp : forall e, prec (h e) = prec e.
Lemma change_level l e : F (body gap e) = body gap' (h e) -> F (level gap l e) = level gap' l (h e).
Proof. intro E. unfold level. rewrite hp. destruct (Nat.leb _ _); [exact E|]. rewrite Fp, E. reflexivity. Qed.
Lemma change_juxt a b : wf a -> wf b -> is_greek (h a) = is_greek a -> ends_name (h a) = ends_name a -> h (Juxt a b) = Juxt (h a) (h b) ->
  F (body gap a) = body gap' (h a) -> F (body gap b) = body gap' (h b) -> F (body gap (Juxt a b)) = body gap' (h (Juxt a b)).
Proof.
  intros Wa Wb Hg Hn Hj Ea Eb. rewrite Hj, !body_juxt, Hg, Hn.
  assert (Er : F (right_level gap b) = right_level gap' (h b)).
  { unfold right_level. rewrite <- (change_level 3 b Eb). destruct (level_start gap 3 b Wb) as (w & r & Hw & E). rewrite E at 3. rewrite Fd, <- E by exact Hw.
    destruct (digit_first _); [rewrite Fp, Eb; reflexivity|reflexivity]. }
  rewrite <- Er. destruct (right_start gap b Wb) as (w & r & Hw & E). destruct (body_last gap a Wa) as (s & c & El & Hc).
  replace (open_first (F (right_level gap b))) with (open_first (right_level gap b)) by (rewrite E; symmetry; apply Fo, Hw).
  replace (risky (body gap' (h a)) (F (right_level gap b))) with (risky (body gap a) (right_level gap b)) by (rewrite <- Ea, E, El; symmetry; apply Fr; assumption).
  rewrite !FA, Fg. f_equal. destruct (_ || _ || _); [rewrite Fp, Ea; reflexivity|apply change_level, Ea].
Qed.
End Change.
Lemma tight_latex e : wf e -> replace [32] [] (latex e) = tight e.
Proof.
  unfold latex, tight. rewrite replace_single_del. set (D := filter (fun x => negb (x =? 32))).
  assert (DA : forall s t, D (s ++ t) = D s ++ D t) by (intros; apply filter_app).
  assert (ND : forall ds, numeral ds -> D ds = ds).
  { intros ds [F _]. induction F as [|c s H F IH]; [reflexivity|]. unfold ascii_digit in H. cbn. destruct (N.eqb_spec c 32); [lia|]. cbn. f_equal. exact IH. }
  assert (SD : forall x, In x symbols -> D x = x).
  { assert (T : forallb (fun x => str_eqb (D x) x) symbols = true) by (vm_compute; reflexivity).
    rewrite forallb_forall in T. intros x H. apply str_eqb_eq, T, H. }
  assert (FD : forall x, In x functions -> D x = x).
  { assert (T : forallb (fun x => str_eqb (D x) x) functions = true) by (vm_compute; reflexivity).
    rewrite forallb_forall in T. intros x H. apply str_eqb_eq, T, H. }
  assert (LV : forall l e, D (body [32] e) = body [] e -> D (level [32] l e) = level [] l e).
  { intros l e0 E. unfold level. destruct (Nat.leb _ _); [exact E|]. unfold parens. rewrite !DA, E. reflexivity. }
  induction e; intro W; cbn [wf] in W.
  - apply ND, W.
  - cbn [body]. rewrite !DA, (ND ds), (ND fs) by apply W. reflexivity.
  - cbn [body]. rewrite !DA, !ND by apply W. reflexivity.
  - apply SD, W.
  - reflexivity.
  - change (D (level [32] (op_prec o) e1 ++ op_latex [32] o ++ level [32] (S (op_prec o)) e2) = level [] (op_prec o) e1 ++ op_latex [] o ++ level [] (S (op_prec o)) e2).
    rewrite !DA, !LV by (apply IHe1, W || apply IHe2, W). destruct o; reflexivity.
  - change (D (u "-" ++ level [32] 3 e) = u "-" ++ level [] 3 e). rewrite !DA, !LV by (apply IHe, W). reflexivity.
  - change (D (ds ++ (if digit_first (level [32] 4 e) then parens (body [32] e) else level [32] 4 e)) =
      ds ++ (if digit_first (level [] 4 e) then parens (body [] e) else level [] 4 e)).
    rewrite !DA, ND by apply W. f_equal.
    assert (Ef : digit_first (level [] 4 e) = digit_first (level [32] 4 e)).
    { rewrite <- LV by (apply IHe, W). destruct (level_first [32] 4 e (proj2 W)) as (c & r & -> & Hc). cbn. destruct (N.eqb_spec c 32); [contradiction|reflexivity]. }
    rewrite Ef. clear Ef. destruct (digit_first (level [32] 4 e)); [|apply LV, IHe, W]. unfold parens. rewrite !DA, IHe by apply W. reflexivity.
  - change (D (level [32] 4 e ++ u "!") = level [] 4 e ++ u "!"). rewrite !DA, !LV by (apply IHe, W). reflexivity.
  - change (D (level [32] 6 e1 ++ u "^{" ++ body [32] e2 ++ u "}") = level [] 6 e1 ++ u "^{" ++ body [] e2 ++ u "}"). rewrite !DA, LV, IHe2 by (apply IHe1, W || apply W). reflexivity.
  - cbn [body]. rewrite !DA, IHe by apply W. reflexivity.
  - cbn [body]. rewrite !DA, IHe1, IHe2 by apply W. reflexivity.
  - cbn [body]. rewrite !DA, IHe1, IHe2 by apply W. reflexivity.
  - cbn [body]. rewrite !DA, IHe by apply W. reflexivity.
  - cbn [body]. rewrite !DA, IHe1, IHe2 by apply W. reflexivity.
  - cbn [body]. rewrite !DA, IHe by apply W. reflexivity.
  - cbn [body]. rewrite !DA, IHe by apply W. reflexivity.
  - cbn [body]. rewrite !DA, IHe by apply W. reflexivity.
  - cbn [body]. rewrite !DA, IHe, (FD f) by apply W. reflexivity.
  - cbn [body]. unfold parens. rewrite !DA, IHe by apply W. reflexivity.
  - destruct W as [W1 W2].
    assert (St : forall w r, In w starters -> D (snd w ++ r) = snd w ++ D r).
    { intros w r H. rewrite DA. f_equal. assert (T : forallb (fun w : word => str_eqb (D (snd w)) (snd w)) starters = true) by (vm_compute; reflexivity). rewrite forallb_forall in T. apply str_eqb_eq, T, H. }
    apply (change_juxt D [32] []) with (h := fun e : arith => e); auto.
    + intros w r H. rewrite St by exact H. assert (T : forallb (fun w : word => match snd w with [] => false | _ => true end) starters = true) by (vm_compute; reflexivity). rewrite forallb_forall in T. specialize (T w H). destruct (snd w); [discriminate|reflexivity].
    + intros w r H. rewrite St by exact H. pose proof opens_table as T. rewrite Forall_forall in T. rewrite !(T w H). reflexivity.
    + intros s c w r Hc Hw. rewrite St, DA by exact Hw. assert (T : forallb (fun c => str_eqb (D [c]) [c]) last_chars = true) by (vm_compute; reflexivity). rewrite forallb_forall in T. specialize (T c Hc). apply str_eqb_eq in T. rewrite T.
      unfold risky. rewrite !last_last. assert (T' : forallb (fun w : word => match snd w with [] => false | _ => true end) starters = true) by (vm_compute; reflexivity). rewrite forallb_forall in T'. specialize (T' w Hw). destruct (snd w); [discriminate|reflexivity].
    + intro s. unfold parens. rewrite !DA. reflexivity.
Qed.

(** ** Small letters *)
Definition low_name (x : pystr) : pystr := match x with [c] => lower_cp c | _ => x end.
Fixpoint low (e : arith) : arith :=
  match e with
  | Sym x => Sym (low_name x)
  | Bin o a b => Bin o (low a) (low b)
  | Neg a => Neg (low a)
  | Scale ds a => Scale ds (low a)
  | Fact a => Fact (low a)
  | Pow a b => Pow (low a) (low b)
  | Exp a => Exp (low a)
  | Frac a b => Frac (low a) (low b)
  | Binom a b => Binom (low a) (low b)
  | Sqrt a => Sqrt (low a)
  | Root a b => Root (low a) (low b)
  | Abs a => Abs (low a)
  | Floor a => Floor (low a)
  | Ceil a => Ceil (low a)
  | Fn f a => Fn f (low a)
  | Group a => Group (low a)
  | Juxt a b => Juxt (low a) (low b)
  | Num _ | Dec _ _ | Pct _ | Pi => e
  end.
Lemma low_prec e : prec (low e) = prec e.
Proof. destruct e; reflexivity. Qed.
Lemma low_literal e : literal (low e) = literal e.
Proof. destruct e as [| | | | | |e| | | | | | | | | | | | | |]; try reflexivity. destruct e; reflexivity. Qed.
Lemma lower_body gap e : gap = [] \/ gap = [32] -> wf e -> lower (body gap e) = body gap (low e).
Proof.
  intro G. assert (DA : forall s t, lower (s ++ t) = lower s ++ lower t) by exact lower_app.
  assert (ND : forall ds, numeral ds -> lower ds = ds).
  { intros ds [F _]. induction F as [|c s H F IH]; [reflexivity|]. unfold ascii_digit in H.
    assert (E : c = 48 \/ c = 49 \/ c = 50 \/ c = 51 \/ c = 52 \/ c = 53 \/ c = 54 \/ c = 55 \/ c = 56 \/ c = 57) by lia.
    change (lower_cp c ++ lower s = c :: s). rewrite IH. repeat destruct E as [->|E]; subst; reflexivity. }
  assert (SD : forall x, In x symbols -> lower x = low_name x).
  { assert (T : forallb (fun x => str_eqb (lower x) (low_name x)) symbols = true) by (vm_compute; reflexivity).
    rewrite forallb_forall in T. intros x H. apply str_eqb_eq, T, H. }
  assert (FD : forall x, In x functions -> lower x = x).
  { assert (T : forallb (fun x => str_eqb (lower x) x) functions = true) by (vm_compute; reflexivity).
    rewrite forallb_forall in T. intros x H. apply str_eqb_eq, T, H. }
  assert (LG : lower gap = gap) by (destruct G as [-> | ->]; reflexivity).
  assert (LV : forall l e, lower (body gap e) = body gap (low e) -> lower (level gap l e) = level gap l (low e)).
  { intros l e0 E. unfold level. rewrite low_prec. destruct (Nat.leb _ _); [exact E|]. unfold parens. rewrite !DA, E. reflexivity. }
  induction e; intro W; cbn [wf] in W; cbn [low].
  - apply ND, W.
  - cbn [body]. rewrite !DA, (ND ds), (ND fs) by apply W. reflexivity.
  - cbn [body]. rewrite !DA, !ND by apply W. reflexivity.
  - apply SD, W.
  - reflexivity.
  - change (lower (level gap (op_prec o) e1 ++ op_latex gap o ++ level gap (S (op_prec o)) e2) = level gap (op_prec o) (low e1) ++ op_latex gap o ++ level gap (S (op_prec o)) (low e2)).
    rewrite !DA, !LV by (apply IHe1, W || apply IHe2, W). destruct o; cbn [op_latex]; rewrite ?DA, ?LG; reflexivity.
  - change (lower (u "-" ++ level gap 3 e) = u "-" ++ level gap 3 (low e)). rewrite !DA, !LV by (apply IHe, W). reflexivity.
  - change (lower (ds ++ (if digit_first (level gap 4 e) then parens (body gap e) else level gap 4 e)) =
      ds ++ (if digit_first (level gap 4 (low e)) then parens (body gap (low e)) else level gap 4 (low e))).
    rewrite !DA, ND by apply W. f_equal.
    assert (Ef : digit_first (level gap 4 (low e)) = digit_first (level gap 4 e)).
    { rewrite <- LV by (apply IHe, W). destruct (level_first gap 4 e (proj2 W)) as (c & r & E & _).
      assert (A : In c text_alphabet -> digit_first (lower_cp c ++ lower r) = digit_first (c :: r)).
      { intro Hc. assert (T : forallb (fun c => match lower_cp c with d :: _ => Bool.eqb (digit_first [d]) (digit_first [c]) | [] => false end) text_alphabet = true) by (vm_compute; reflexivity).
        rewrite forallb_forall in T. specialize (T c Hc). destruct (lower_cp c) as [|d l]; [discriminate|]. apply Bool.eqb_prop in T. exact T. }
      rewrite E. apply A. apply mem_in. destruct (begins_src _ _ _ (toks_begin gap e [] (proj2 W))) as (w & r0 & Hw & Es).
      unfold level in E. destruct (Nat.leb 4 (prec e)); [|injection E as <- _; vm_compute; reflexivity].
      pose proof (src_toks gap e [] (proj2 W)) as Et. rewrite Es in Et. cbn [app] in Et. rewrite E in Et.
      assert (T : forallb (fun w => match snd w with c :: _ => mem_cp text_alphabet c | [] => false end) starters = true) by (vm_compute; reflexivity).
      rewrite forallb_forall in T. specialize (T w Hw). cbv beta in T. destruct w as [k [|c' x]]; cbn [snd] in *; [discriminate|].
      injection Et as <- _. exact T. }
    rewrite Ef. clear Ef. destruct (digit_first (level gap 4 e)); [|apply LV, IHe, W]. unfold parens. rewrite !DA, IHe by apply W. reflexivity.
  - change (lower (level gap 4 e ++ u "!") = level gap 4 (low e) ++ u "!"). rewrite !DA, !LV by (apply IHe, W). reflexivity.
  - change (lower (level gap 6 e1 ++ u "^{" ++ body gap e2 ++ u "}") = level gap 6 (low e1) ++ u "^{" ++ body gap (low e2) ++ u "}"). rewrite !DA, LV, IHe2 by (apply IHe1, W || apply W). reflexivity.
  - cbn [body]. rewrite !DA, IHe by apply W. reflexivity.
  - cbn [body]. rewrite !DA, IHe1, IHe2 by apply W. reflexivity.
  - cbn [body]. rewrite !DA, IHe1, IHe2 by apply W. reflexivity.
  - cbn [body]. rewrite !DA, IHe by apply W. reflexivity.
  - cbn [body]. rewrite !DA, IHe1, IHe2 by apply W. reflexivity.
  - cbn [body]. rewrite !DA, IHe by apply W. reflexivity.
  - cbn [body]. rewrite !DA, LG, IHe by apply W. reflexivity.
  - cbn [body]. rewrite !DA, LG, IHe by apply W. reflexivity.
  - cbn [body]. rewrite !DA, IHe, (FD f) by apply W. reflexivity.
  - cbn [body]. unfold parens. rewrite !DA, IHe by apply W. reflexivity.
  - destruct W as [W1 W2]. change (Juxt (low e1) (low e2)) with (low (Juxt e1 e2)).
    assert (T : Forall (fun w => forall r, digit_first (lower (snd w ++ r)) = digit_first (snd w ++ r) /\ open_first (lower (snd w ++ r)) = open_first (snd w ++ r)) starters).
    { repeat (apply Forall_cons; [intro; split; vm_compute; reflexivity|]). apply Forall_nil. }
    rewrite Forall_forall in T.
    apply (change_juxt lower gap gap); auto.
    + intros w r H. apply T, H.
    + intros w r H. apply T, H.
    + intros s c w r Hc Hw. rewrite !DA. unfold risky.
      assert (Tl : forallb (fun c => match lower [c] with [d] => forallb (fun p => Bool.eqb (one_small [d] (fst p)) (one_small [c] (fst p))) word_starts | _ => false end) last_chars = true) by (vm_compute; reflexivity).
      rewrite forallb_forall in Tl. specialize (Tl c Hc). destruct (lower [c]) as [|d [|? ?]] eqn:Ed; try discriminate. rewrite !last_last. 
      assert (Tw : forallb (fun w : word => match snd w with c :: _ => match lower_cp c with [d] => forallb (fun p => Bool.eqb (one_small [d] (snd p)) (one_small [c] (snd p))) word_starts | _ => false end | [] => false end) starters = true) by (vm_compute; reflexivity).
      rewrite forallb_forall in Tw. specialize (Tw w Hw). destruct (snd w) as [|x y]; [discriminate|]. change (lower (x :: y)) with (lower_cp x ++ lower y). destruct (lower_cp x) as [|x' [|? ?]]; try discriminate.
      cbn [app firstn]. clear - Tl Tw. induction word_starts as [|p l IH]; [reflexivity|]. cbn [forallb existsb] in *. apply andb_true_iff in Tl, Tw. destruct Tl as [A1 A2], Tw as [B1 B2]. apply Bool.eqb_prop in A1, B1. rewrite A1, B1. f_equal. auto.
    + intro s. unfold parens. rewrite !DA. reflexivity.
    + exact low_prec.
    + destruct e1; try reflexivity. cbn [low is_greek]. assert (Tg : forallb (fun x => Bool.eqb (is_greek (Sym (low_name x))) (is_greek (Sym x))) symbols = true) by (vm_compute; reflexivity). rewrite forallb_forall in Tg. apply Bool.eqb_prop, Tg, W1.
    + destruct e1 as [| | | | | | | | |e1 ?| | | | | | | | | | |]; try reflexivity. destruct e1; reflexivity.
Qed.
Lemma low_letter c : In c all_letters -> exists d, lower_cp c = [d] /\ In d lower_letters.
Proof.
  assert (T : forallb (fun c => match lower_cp c with [d] => mem_cp lower_letters d | _ => false end) all_letters = true) by (vm_compute; reflexivity).
  rewrite forallb_forall in T. intro H. specialize (T c H). destruct (lower_cp c) as [|d [|? ?]]; try discriminate. exists d. split; [reflexivity|apply mem_in, T].
Qed.
Lemma greek_long x : In x greeks -> low_name x = x.
Proof.
  assert (T : forallb (fun x => str_eqb (low_name x) x) greeks = true) by (vm_compute; reflexivity).
  rewrite forallb_forall in T. intro H. apply str_eqb_eq, T, H.
Qed.
Lemma small_letter d : In d lower_letters -> lower_cp d = [d].
Proof.
  assert (T : forallb (fun c => str_eqb (lower_cp c) [c]) lower_letters = true) by (vm_compute; reflexivity).
  rewrite forallb_forall in T. intro H. apply str_eqb_eq, T, H.
Qed.
Lemma low_unit e : printable e -> unit_first e = false -> unit_first (low e) = false.
Proof.
  assert (AL : forall l e, (printable e -> unit_first e = false -> unit_first (low e) = false) -> printable e -> at_lead l unit_first e = false -> at_lead l unit_first (low e) = false).
  { intros l e0 IH P H. unfold at_lead in *. rewrite low_prec. destruct (Nat.leb l (prec e0)); [apply IH; assumption|reflexivity]. }
  induction e; cbn [unit_first low printable]; intros P H; try reflexivity; try discriminate H; try (apply AL; tauto).
  destruct P as [P|(c & -> & P)].
  - rewrite greek_long by exact P. exact H.
  - cbn [low_name]. destruct (low_letter c P) as (d & E & Hd). rewrite E in *. rewrite (small_letter d Hd). apply orb_false_iff in H. destruct H as [_ H].
    cbn [existsb] in *. rewrite orb_false_r in *. rewrite H. reflexivity.
Qed.
Lemma low_frac e : frac_first (low e) = frac_first e.
Proof. induction e; cbn [frac_first low]; try reflexivity; unfold at_lead in *; rewrite low_prec; congruence. Qed.
Lemma printable_low e : printable e -> plain (low e).
Proof.
  assert (AL : forall l e, printable e -> at_lead l unit_first e = false -> at_lead l unit_first (low e) = false).
  { intros l e0 P H. unfold at_lead in *. rewrite low_prec. destruct (Nat.leb l (prec e0)); [apply low_unit; assumption|reflexivity]. }
  induction e; cbn [printable plain low]; intro H; try tauto.
  - destruct H as [H|(c & -> & H)]; [left; rewrite greek_long; exact H|right]. cbn [low_name]. destruct (low_letter c H) as (d & -> & Hd). eauto.
  - destruct H as (H1 & H2 & H3 & H4). repeat split; auto.
  - destruct H as [H1 H2]. split; [auto|]. unfold at_lead in *. rewrite low_prec, low_frac. exact H2.
  - destruct H as [H1 H2]. split; [auto|apply low_unit; assumption].
  - destruct H as [H1 H2]. split; [auto|apply low_unit; assumption].
Qed.
Lemma plain_printable e : plain e -> printable e.
Proof.
  induction e; cbn [printable plain]; intro H; try tauto.
  destruct H as [H|(c & -> & H)]; [left; exact H|right; exists c; split; [reflexivity|apply in_or_app; left; exact H]].
Qed.
Lemma plain_low e : plain e -> low e = e.
Proof.
  induction e; cbn [plain low]; intro H; f_equal; try tauto.
  destruct H as [H|(c & -> & H)]; [apply greek_long, H|apply small_letter, H].
Qed.

Lemma printable_finishes gap e : gap = [] \/ gap = [32] -> wf e -> printable e -> finishes Fresh (body gap e).
Proof. intros G W P. apply run_body; auto. apply ready_fresh. Qed.
Lemma plain_finishes gap e : gap = [] \/ gap = [32] -> wf e -> plain e -> finishes Fresh (body gap e).
Proof. intros G W P. apply printable_finishes; auto. apply plain_printable, P. Qed.
Lemma no_brace s : finishes Fresh s -> starts_with [123] s = false.
Proof.
  intros (q & H & _). destruct s as [|c s]; [reflexivity|]. cbn [starts_with]. destruct (N.eqb_spec 123 c) as [<-|]; [|reflexivity]. discriminate H.
Qed.
Lemma no_comma_in s : finishes Fresh s -> ~ In 44 s.
Proof.
  intros F H. pose proof (readable_alpha _ _ _ _ s 44 (finishes_readable s F) H) as X. apply mem_in in X. vm_compute in X. discriminate.
Qed.
Lemma str_is_int_text s : finishes Fresh s -> py_float s = None -> str_is_int s = false.
Proof. intros F H. unfold str_is_int. rewrite strip_commas_none, H by (apply no_comma_in, F). reflexivity. Qed.
(** Letters of either case come out as small ones. *)
Lemma body_normal gap ints e : gap = [] \/ gap = [32] -> wf e -> wf (low e) -> printable e -> literal e = false ->
  replace [32] [] (body gap e) = tight e -> string_normalize ints (body gap e) = NStr (tight (low e)).
Proof.
  intros G W W' P L E. pose proof (printable_finishes gap e G W P) as F.
  pose proof (plain_finishes [] (low e) (or_introl eq_refl) W' (printable_low e P)) as F'.
  assert (E' : tight (low e) = lower (replace [32] [] (body gap e))) by (rewrite E; symmetry; apply lower_body; auto).
  rewrite E'.
  apply (un_normalizes place place_eqb place_eqb_ok places text_alphabet move places_closed latex_undisturbed).
  - apply finishes_readable, F.
  - apply finishes_strip, F.
  - apply no_brace, F.
  - apply not_float; auto.
  - rewrite <- E'. apply str_is_int_text; [exact F'|]. apply not_float; auto; [apply plain_printable, printable_low, P|rewrite low_literal; exact L].
Qed.
Theorem latex_lowers ints e : wf e -> wf (low e) -> printable e -> literal e = false -> string_normalize ints (latex e) = NStr (tight (low e)).
Proof. intros W W' P L. apply body_normal; auto. apply tight_latex, W. Qed.
Lemma tight_tight e : wf e -> replace [32] [] (tight e) = tight e.
Proof. intro W. rewrite <- (tight_latex e W), !replace_single_del. apply filter_idem. Qed.
Theorem tight_lowers ints e : wf e -> wf (low e) -> printable e -> literal e = false -> string_normalize ints (tight e) = NStr (tight (low e)).
Proof. intros W W' P L. apply (body_normal []); auto. apply tight_tight, W. Qed.
Theorem latex_normal ints e : wf e -> plain e -> literal e = false -> string_normalize ints (latex e) = NStr (tight e).
Proof. intros W P L. rewrite <- (plain_low e P) at 2. apply latex_lowers; auto; [rewrite plain_low; auto|apply plain_printable, P]. Qed.
Theorem tight_normal ints e : wf e -> plain e -> literal e = false -> string_normalize ints (tight e) = NStr (tight e).
Proof. intros W P L. rewrite <- (plain_low e P) at 2. apply tight_lowers; auto; [rewrite plain_low; auto|apply plain_printable, P]. Qed.
