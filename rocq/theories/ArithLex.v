(** The tokens of arithmetic, and that the lexer finds them *)
From Coq Require Import String List NArith ZArith Bool Lia.
From Verif Require Import PyStr PyStrTheory Regex Normalize NumTheory L2SValue Lexer Arith.
Import ListNotations.
Local Open Scope N_scope.

(** Tokens as words; the first token of a part has the given text before it *)
Definition word := (N * pystr)%type.
Definition tok (w : word) (ld : pystr) : token := Tok (fst w) (snd w) ld.
Definition w_digit (c : N) : word := (K_DIGIT, [c]).
Definition w_lparen : word := (K_L_PAREN, u "(").       Definition w_rparen : word := (K_R_PAREN, u ")").
Definition w_lbrace : word := (K_L_BRACE, u "{").       Definition w_rbrace : word := (K_R_BRACE, u "}").
Definition w_lbracket : word := (K_L_BRACKET, u "[").   Definition w_rbracket : word := (K_R_BRACKET, u "]").
Definition w_bar : word := (K_BAR, u "|").
Definition w_left : word := (K_L_LEFT, u "\left").      Definition w_right : word := (K_R_RIGHT, u "\right").
Definition w_lfloor : word := (K_L_FLOOR, u "\lfloor"). Definition w_rfloor : word := (K_R_FLOOR, u "\rfloor").
Definition w_lceil : word := (K_L_CEIL, u "\lceil").    Definition w_rceil : word := (K_R_CEIL, u "\rceil").
Definition w_comma : word := (K_COMMA, u ",").
Definition w_period : word := (K_PERIOD, u ".").        Definition w_percent : word := (K_PERCENT_SIGN, u "\%").
Definition w_pi : word := (K_SYMBOL, u "\pi").          Definition w_e : word := (K_EXP_E, u "e").
Definition w_caret : word := (K_CARET, u "^").          Definition w_bang : word := (K_BANG, u "!").
Definition w_frac : word := (K_CMD_FRAC, u "\frac").    Definition w_binom : word := (K_CMD_BINOM, u "\binom").
Definition w_sqrt : word := (K_FUNC_SQRT, u "\sqrt").   Definition w_minus : word := (K_SUB, u "-").
Definition w_letter (c : N) : word := (K_LETTER_NO_E, [c]).
Definition w_sym (x : pystr) : word := match x with 92 :: _ => (K_GREEK_CMD, x) | _ => (K_LETTER_NO_E, x) end.
Definition w_op (o : op) : word :=
  match o with
  | Plus => (K_ADD, u "+") | Minus => w_minus | Star => (K_MUL, u "*") | Cdot => (K_CMD_CDOT, u "\cdot")
  | Times => (K_CMD_TIMES, u "\times") | Slash => (K_DIV, u "/") | Obelus => (K_CMD_DIV, u "\div")
  | Colon => (K_COLON, u ":") | Modulo => (K_CMD_MOD, u "\mod")
  end.
(** The kinds of the function names *)
Definition fn_kinds : list (pystr * N) :=
  combine (map u ["sin"; "cos"; "tan"; "csc"; "sec"; "cot"; "sinh"; "cosh"; "tanh";
     "arcsin"; "arccos"; "arctan"; "arccsc"; "arcsec"; "arccot"; "arcsinh"; "arccosh"; "arctanh"; "arsinh"; "arcosh"; "artanh"; "log"; "ln"; "exp"]%string)
    [K_FUNC_SIN; K_FUNC_COS; K_FUNC_TAN; K_FUNC_CSC; K_FUNC_SEC; K_FUNC_COT; K_FUNC_SINH; K_FUNC_COSH; K_FUNC_TANH;
     K_FUNC_ARCSIN; K_FUNC_ARCCOS; K_FUNC_ARCTAN; K_FUNC_ARCCSC; K_FUNC_ARCSEC; K_FUNC_ARCCOT; K_FUNC_ARCSINH; K_FUNC_ARCCOSH; K_FUNC_ARCTANH;
     K_FUNC_ARSINH; K_FUNC_ARCOSH; K_FUNC_ARTANH; K_FUNC_LOG; K_FUNC_LN; K_FUNC_EXP].
Definition fn_kind (f : pystr) : N := match find (fun p => str_eqb (fst p) f) fn_kinds with Some (_, k) => k | None => 0 end.
Definition w_fn (f : pystr) : word := (fn_kind f, 92 :: f).

Definition digits (ld : pystr) (ds : pystr) : list token :=
  match ds with [] => [] | c :: r => tok (w_digit c) ld :: map (fun c => tok (w_digit c) []) r end.
Definition first_is (k : N) (ts : list token) : bool := match ts with t :: _ => kind t =? k | [] => false end.
Definition paren_toks (ld : pystr) (ts : list token) : list token := tok w_lparen ld :: ts ++ [tok w_rparen []].
Section Writing.
Variable gap : pystr.
Local Notation body := (Arith.body gap).
Local Notation op_latex := (Arith.op_latex gap).
Definition op_lead (o : op) : pystr := match o with Cdot | Times | Obelus | Modulo => gap | _ => [] end.
Fixpoint toks (e : arith) (ld : pystr) : list token :=
  let at_level (l : nat) (e : arith) (ld : pystr) :=
    if Nat.leb l (prec e) then toks e ld else paren_toks ld (toks e []) in
  match e with
  | Num ds => digits ld ds
  | Dec ds fs => digits ld ds ++ tok w_period [] :: digits [] fs
  | Pct ds => digits ld ds ++ [tok w_percent []]
  | Sym x => [tok (w_sym x) ld]
  | Pi => [tok w_pi ld]
  | Bin o a b => at_level (op_prec o) a ld ++ tok (w_op o) [] :: at_level (S (op_prec o)) b (op_lead o)
  | Neg a => tok w_minus ld :: at_level 3%nat a []
  | Scale ds a => digits ld ds ++ (if first_is K_DIGIT (at_level 4%nat a []) then paren_toks [] (toks a []) else at_level 4%nat a [])
  | Fact a => at_level 4%nat a ld ++ [tok w_bang []]
  | Pow a b => at_level 6%nat a ld ++ tok w_caret [] :: tok w_lbrace [] :: toks b [] ++ [tok w_rbrace []]
  | Exp a => tok w_e ld :: tok w_caret [] :: tok w_lbrace [] :: toks a [] ++ [tok w_rbrace []]
  | Frac a b => tok w_frac ld :: tok w_lbrace [] :: toks a [] ++ tok w_rbrace [] :: tok w_lbrace [] :: toks b [] ++ [tok w_rbrace []]
  | Binom a b => tok w_binom ld :: tok w_lbrace [] :: toks a [] ++ tok w_rbrace [] :: tok w_lbrace [] :: toks b [] ++ [tok w_rbrace []]
  | Sqrt a => tok w_sqrt ld :: tok w_lbrace [] :: toks a [] ++ [tok w_rbrace []]
  | Root n a => tok w_sqrt ld :: tok w_lbracket [] :: toks n [] ++ tok w_rbracket [] :: tok w_lbrace [] :: toks a [] ++ [tok w_rbrace []]
  | Abs a => tok w_left ld :: tok w_bar [] :: toks a [] ++ [tok w_right []; tok w_bar []]
  | Floor a => tok w_lfloor ld :: toks a gap ++ [tok w_rfloor []]
  | Ceil a => tok w_lceil ld :: toks a gap ++ [tok w_rceil []]
  | Fn f a => tok (w_fn f) ld :: tok w_lparen [] :: toks a [] ++ [tok w_rparen []]
  | Group a => paren_toks ld (toks a [])
  | Juxt a b =>
    let right := if first_is K_DIGIT (at_level 3%nat b gap) then paren_toks gap (toks b []) else at_level 3%nat b gap in
    (if is_greek a || ends_name a && (first_is K_L_PAREN right || first_is K_L_LEFT right) || risky (body a) (right_text gap b) then paren_toks ld (toks a []) else at_level 4%nat a ld) ++ right
  end.
Definition at_level (l : nat) (e : arith) (ld : pystr) : list token :=
  if Nat.leb l (prec e) then toks e ld else paren_toks ld (toks e []).
Definition factor_toks (a : arith) : list token :=
  if first_is K_DIGIT (at_level 4%nat a []) then paren_toks [] (toks a []) else at_level 4%nat a [].

Definition right_toks (b : arith) : list token :=
  if first_is K_DIGIT (at_level 3%nat b gap) then paren_toks gap (toks b []) else at_level 3%nat b gap.
Definition clash (a b : arith) : bool :=
  is_greek a || ends_name a && (first_is K_L_PAREN (right_toks b) || first_is K_L_LEFT (right_toks b)) || risky (body a) (right_text gap b).
Definition left_toks (a b : arith) (ld : pystr) : list token := if clash a b then paren_toks ld (toks a []) else at_level 4%nat a ld.

(** The source text *)
Definition src (ts : list token) : pystr := flat_map (fun t => lead t ++ text t) ts.
Lemma src_app a b : src (a ++ b) = src a ++ src b.
Proof. apply flat_map_app. Qed.
Lemma src_digits ld ds : ds <> [] -> src (digits ld ds) = ld ++ ds.
Proof.
  destruct ds as [|c r]; [congruence|intros _]. unfold src. cbn [digits flat_map]. cbn [lead text tok w_digit fst snd].
  rewrite <- app_assoc. f_equal. cbn [app]. f_equal. induction r as [|d r IH]; [reflexivity|]. cbn [map flat_map]. rewrite IH. reflexivity.
Qed.

(** First tokens *)
Definition digit_words : list word := map w_digit [48; 49; 50; 51; 52; 53; 54; 55; 56; 57].
Definition other_starters : list word :=
  map w_sym symbols ++ map w_fn functions ++ [w_pi; w_lparen; w_minus; w_e; w_frac; w_binom; w_sqrt; w_left; w_lfloor; w_lceil].
Definition starters : list word := digit_words ++ other_starters.
Lemma digit_word c : ascii_digit c -> In (w_digit c) digit_words.
Proof.
  unfold ascii_digit. intro H. unfold digit_words. apply in_map.
  assert (E : c = 48 \/ c = 49 \/ c = 50 \/ c = 51 \/ c = 52 \/ c = 53 \/ c = 54 \/ c = 55 \/ c = 56 \/ c = 57) by lia.
  repeat destruct E as [->|E]; subst; cbn; tauto.
Qed.
Definition begins (ts : list token) (ld : pystr) (ws : list word) : Prop := exists w r, ts = tok w ld :: r /\ In w ws.
Lemma begins_app ts ld ws r : begins ts ld ws -> begins (ts ++ r) ld ws.
Proof. intros (w & r' & -> & H). exists w, (r' ++ r). auto. Qed.
Lemma begins_digits ds ld : numeral ds -> begins (digits ld ds) ld digit_words.
Proof.
  intros [F N]. destruct ds as [|c r]; [congruence|]. inversion F; subst. eexists (w_digit c), _. split; [reflexivity|apply digit_word; assumption].
Qed.
Lemma begins_more ts ld ws ws' : begins ts ld ws -> incl ws ws' -> begins ts ld ws'.
Proof. intros (w & r & -> & H) I. exists w, r. auto. Qed.
Lemma incl_digits : incl digit_words starters.
Proof. apply incl_appl, incl_refl. Qed.
Ltac starter := match goal with |- begins (tok ?w _ :: ?r) _ _ => exists w, r; split; [reflexivity|apply in_or_app; right; apply in_or_app; right; apply in_or_app; right; cbn; tauto] end.
Lemma begins_paren ld ts : begins (paren_toks ld ts) ld starters.
Proof. unfold paren_toks. starter. Qed.
Lemma toks_begin e ld : wf e -> begins (toks e ld) ld starters.
Proof.
  revert ld. induction e; intros ld W; cbn [toks wf] in *;
    try (apply (begins_more _ _ digit_words); [try apply begins_app; apply begins_digits; apply W|apply incl_digits]); try starter.
  - exists (w_sym x), []. split; [reflexivity|]. apply in_or_app; right; apply in_or_app; left. apply in_map, W.
  - apply begins_app. destruct (Nat.leb _ _); [apply IHe1, W|apply begins_paren].
  - apply begins_app. destruct (Nat.leb _ _); [apply IHe, W|apply begins_paren].
  - apply begins_app. destruct (Nat.leb _ _); [apply IHe1, W|apply begins_paren].
  - eexists (w_fn f), _. split; [reflexivity|]. apply in_or_app; right; apply in_or_app; right; apply in_or_app; left. apply in_map, W.
  - apply begins_paren.
  - apply begins_app. destruct (_ || _ || _); [apply begins_paren|]. destruct (Nat.leb _ _); [apply IHe1, W|apply begins_paren].
Qed.
Lemma at_level_begins l e ld : wf e -> begins (at_level l e ld) ld starters.
Proof. intro W. unfold at_level. destruct (Nat.leb _ _); [apply toks_begin, W|apply begins_paren]. Qed.

(** The text is the source of the tokens *)
Lemma first_digit_table : Forall (fun w => digit_first (snd w) = (fst w =? K_DIGIT)) starters.
Proof. repeat (apply Forall_cons; [reflexivity|]). apply Forall_nil. Qed.
Lemma digit_first_app s r : s <> [] -> digit_first (s ++ r) = digit_first s.
Proof. destruct s; [congruence|reflexivity]. Qed.
Lemma starters_nonempty : Forall (fun w => snd w <> []) starters.
Proof. repeat (apply Forall_cons; [discriminate|]). apply Forall_nil. Qed.
Lemma begins_digit ts : begins ts [] starters -> digit_first (src ts) = first_is K_DIGIT ts.
Proof.
  intros (w & r & -> & H). unfold src. cbn [flat_map lead text tok first_is kind app].
  pose proof first_digit_table as T. pose proof starters_nonempty as T'. rewrite Forall_forall in T, T'.
  rewrite digit_first_app by (apply T', H). apply T, H.
Qed.
(** the first token does not depend on the space before it *)
Lemma first_paren k ld ld' ts ts' : first_is k (paren_toks ld ts) = first_is k (paren_toks ld' ts').
Proof. reflexivity. Qed.
Lemma first_app k a b a' b' : a <> [] -> a' <> [] -> first_is k a = first_is k a' -> first_is k (a ++ b) = first_is k (a' ++ b').
Proof. destruct a; [congruence|]. destruct a'; [congruence|]. intros _ _ E. exact E. Qed.
Lemma first_digits k ld ld' ds : first_is k (digits ld ds) = first_is k (digits ld' ds).
Proof. destruct ds; reflexivity. Qed.
Lemma begins_ne ts ld ws : begins ts ld ws -> ts <> [].
Proof. intros (w & r & -> & _). discriminate. Qed.
Lemma first_toks k e : wf e -> forall ld ld', first_is k (toks e ld) = first_is k (toks e ld').
Proof.
  induction e; intros W ld ld'; cbn [toks wf] in *; try reflexivity;
    try (destruct ds as [|c r]; [destruct W as [? ?]; try (destruct H; congruence); congruence|reflexivity]).
  - apply first_app; [destruct (Nat.leb _ _); eapply begins_ne; [apply toks_begin, W|apply begins_paren]..|].
    destruct (Nat.leb _ _); [apply IHe1, W|reflexivity].
  - apply first_app; [destruct (Nat.leb _ _); eapply begins_ne; [apply toks_begin, W|apply begins_paren]..|].
    destruct (Nat.leb _ _); [apply IHe, W|reflexivity].
  - apply first_app; [destruct (Nat.leb _ _); eapply begins_ne; [apply toks_begin, W|apply begins_paren]..|].
    destruct (Nat.leb _ _); [apply IHe1, W|reflexivity].
  - apply first_app; [destruct (_ || _ || _); [discriminate|destruct (Nat.leb _ _); eapply begins_ne; [apply toks_begin, W|apply begins_paren]]..|].
    destruct (_ || _ || _); [reflexivity|]. destruct (Nat.leb _ _); [apply IHe1, W|reflexivity].
Qed.
Lemma first_level k l e ld ld' : wf e -> first_is k (at_level l e ld) = first_is k (at_level l e ld').
Proof. intro W. unfold at_level. destruct (Nat.leb _ _); [apply first_toks, W|reflexivity]. Qed.
Lemma opens_table : Forall (fun w => forall r, open_first (snd w ++ r) = (fst w =? K_L_PAREN) || (fst w =? K_L_LEFT)) starters.
Proof. repeat (apply Forall_cons; [intro; vm_compute; reflexivity|]). apply Forall_nil. Qed.
Lemma begins_opens ts : begins ts [] starters -> open_first (src ts) = first_is K_L_PAREN ts || first_is K_L_LEFT ts.
Proof. intros (w & r & -> & H). pose proof opens_table as T. rewrite Forall_forall in T. exact (T w H (src r)). Qed.
Lemma op_latex_eq o : op_latex o = snd (w_op o) ++ op_lead o.
Proof. destruct o; reflexivity. Qed.
Lemma src_paren ld ts : src (paren_toks ld ts) = ld ++ parens (src ts).
Proof. unfold paren_toks, parens. unfold src. cbn [flat_map lead text tok w_lparen fst snd]. rewrite flat_map_app, <- app_assoc. reflexivity. Qed.
Ltac toksrc := unfold src; cbn [flat_map lead text tok fst snd]; rewrite ?flat_map_app; cbn [flat_map lead text tok fst snd]; rewrite ?flat_map_app.
Lemma src_toks e : forall ld, wf e -> src (toks e ld) = ld ++ body e.
Proof.
  assert (LV : forall l e' ld, (forall ld, wf e' -> src (toks e' ld) = ld ++ body e') -> wf e' ->
     src (at_level l e' ld) = ld ++ (if Nat.leb l (prec e') then body e' else parens (body e'))).
  { intros l e' ld IH W. unfold at_level. destruct (Nat.leb _ _); [apply IH, W|]. rewrite src_paren, (IH [] W). reflexivity. }
  induction e; intros ld W; cbn [wf] in W.
  - apply src_digits, W.
  - cbn [toks body]. rewrite src_app, src_digits by apply W. rewrite <- app_assoc. f_equal. f_equal.
    change (src (tok w_period [] :: digits [] fs)) with (u "." ++ src (digits [] fs)). rewrite src_digits by apply W. reflexivity.
  - cbn [toks body]. rewrite src_app, src_digits by apply W. rewrite <- app_assoc. reflexivity.
  - cbn [toks body]. unfold src. cbn [flat_map lead text tok]. rewrite app_nil_r. f_equal. unfold w_sym. destruct x as [|c x]; [reflexivity|].
    destruct (N.eqb_spec c 92) as [->|N]; [reflexivity|]. destruct c as [|p]; [reflexivity|]. do 7 (destruct p; try reflexivity).
  - cbn [toks body]. toksrc. rewrite app_nil_r. reflexivity.
  - cbn [toks body]. change (src (at_level (op_prec o) e1 ld ++ tok (w_op o) [] :: at_level (S (op_prec o)) e2 (op_lead o)) =
      ld ++ (if Nat.leb (op_prec o) (prec e1) then body e1 else parens (body e1)) ++ op_latex o ++ (if Nat.leb (S (op_prec o)) (prec e2) then body e2 else parens (body e2))).
    rewrite src_app, LV by (try assumption; apply W). change (tok (w_op o) [] :: ?r) with ([tok (w_op o) []] ++ r). rewrite src_app, LV by (try assumption; apply W).
    rewrite op_latex_eq. rewrite <- !app_assoc. f_equal. f_equal. unfold src. cbn [flat_map lead text tok app]. rewrite app_nil_r. reflexivity.
  - cbn [toks body]. change (src ([tok w_minus ld] ++ at_level 3%nat e []) = ld ++ u "-" ++ (if Nat.leb 3 (prec e) then body e else parens (body e))).
    rewrite src_app, LV by (try assumption; apply W). unfold src. cbn [flat_map lead text tok app]. rewrite app_nil_r, <- app_assoc. reflexivity.
  - cbn [toks body]. change (src (digits ld ds ++ factor_toks e) = ld ++ ds ++
      (if digit_first (if Nat.leb 4 (prec e) then body e else parens (body e)) then parens (body e) else (if Nat.leb 4 (prec e) then body e else parens (body e)))).
    destruct W as [Wd W]. rewrite src_app, src_digits by apply Wd. rewrite <- app_assoc. f_equal. f_equal. unfold factor_toks.
    rewrite <- (begins_digit _ (at_level_begins 4 e [] W)), LV by assumption. cbn [app].
    destruct (digit_first _); [rewrite src_paren, (IHe [] W); reflexivity|]. rewrite LV by assumption. reflexivity.
  - cbn [toks body]. change (src (at_level 4%nat e ld ++ [tok w_bang []]) = ld ++ (if Nat.leb 4 (prec e) then body e else parens (body e)) ++ u "!").
    rewrite src_app, LV by (try assumption; apply W). rewrite <- app_assoc. reflexivity.
  - cbn [toks body]. change (src (at_level 6%nat e1 ld ++ [tok w_caret []; tok w_lbrace []] ++ toks e2 [] ++ [tok w_rbrace []]) =
      ld ++ (if Nat.leb 6 (prec e1) then body e1 else parens (body e1)) ++ u "^{" ++ body e2 ++ u "}").
    rewrite !src_app, LV, IHe2 by (try assumption; apply W). rewrite <- !app_assoc. reflexivity.
  - cbn [toks body]. change (src ([tok w_e ld; tok w_caret []; tok w_lbrace []] ++ toks e [] ++ [tok w_rbrace []]) = ld ++ u "e^{" ++ body e ++ u "}").
    rewrite !src_app, IHe by apply W. toksrc. rewrite <- !app_assoc. reflexivity.
  - cbn [toks body]. change (src ([tok w_frac ld; tok w_lbrace []] ++ toks e1 [] ++ [tok w_rbrace []; tok w_lbrace []] ++ toks e2 [] ++ [tok w_rbrace []]) = ld ++ u "\frac{" ++ body e1 ++ u "}{" ++ body e2 ++ u "}").
    rewrite !src_app, IHe1, IHe2 by apply W. toksrc. rewrite <- !app_assoc. reflexivity.
  - cbn [toks body]. change (src ([tok w_binom ld; tok w_lbrace []] ++ toks e1 [] ++ [tok w_rbrace []; tok w_lbrace []] ++ toks e2 [] ++ [tok w_rbrace []]) = ld ++ u "\binom{" ++ body e1 ++ u "}{" ++ body e2 ++ u "}").
    rewrite !src_app, IHe1, IHe2 by apply W. toksrc. rewrite <- !app_assoc. reflexivity.
  - cbn [toks body]. change (src ([tok w_sqrt ld; tok w_lbrace []] ++ toks e [] ++ [tok w_rbrace []]) = ld ++ u "\sqrt{" ++ body e ++ u "}").
    rewrite !src_app, IHe by apply W. toksrc. rewrite <- !app_assoc. reflexivity.
  - cbn [toks body]. change (src ([tok w_sqrt ld; tok w_lbracket []] ++ toks e1 [] ++ [tok w_rbracket []; tok w_lbrace []] ++ toks e2 [] ++ [tok w_rbrace []]) = ld ++ u "\sqrt[" ++ body e1 ++ u "]{" ++ body e2 ++ u "}").
    rewrite !src_app, IHe1, IHe2 by apply W. toksrc. rewrite <- !app_assoc. reflexivity.
  - cbn [toks body]. change (src ([tok w_left ld; tok w_bar []] ++ toks e [] ++ [tok w_right []; tok w_bar []]) = ld ++ u "\left|" ++ body e ++ u "\right|").
    rewrite !src_app, IHe by apply W. toksrc. rewrite <- !app_assoc. reflexivity.
  - cbn [toks body]. change (src ([tok w_lfloor ld] ++ toks e gap ++ [tok w_rfloor []]) = ld ++ u "\lfloor" ++ gap ++ body e ++ u "\rfloor").
    rewrite !src_app, IHe by apply W. toksrc. rewrite <- !app_assoc. reflexivity.
  - cbn [toks body]. change (src ([tok w_lceil ld] ++ toks e gap ++ [tok w_rceil []]) = ld ++ u "\lceil" ++ gap ++ body e ++ u "\rceil").
    rewrite !src_app, IHe by apply W. toksrc. rewrite <- !app_assoc. reflexivity.
  - cbn [toks body]. change (src ([tok (w_fn f) ld; tok w_lparen []] ++ toks e [] ++ [tok w_rparen []]) = ld ++ u "\" ++ f ++ u "(" ++ body e ++ u ")").
    rewrite !src_app, IHe by apply W. toksrc. cbn [w_fn snd]. rewrite <- !app_assoc. reflexivity.
  - cbn [toks body]. rewrite src_paren, (IHe [] W). reflexivity.
  - destruct W as [W1 W2]. change (src (left_toks e1 e2 ld ++ right_toks e2) = ld ++
      (let right := if digit_first (if Nat.leb 3 (prec e2) then body e2 else parens (body e2)) then parens (body e2) else (if Nat.leb 3 (prec e2) then body e2 else parens (body e2)) in
       (if is_greek e1 || ends_name e1 && open_first right || risky (body e1) right then parens (body e1) else if Nat.leb 4 (prec e1) then body e1 else parens (body e1)) ++ gap ++ right)).
    assert (R : exists ts, begins ts [] starters /\ (forall k, first_is k (right_toks e2) = first_is k ts) /\ src (right_toks e2) = gap ++ src ts /\
      src ts = if digit_first (if Nat.leb 3 (prec e2) then body e2 else parens (body e2)) then parens (body e2) else (if Nat.leb 3 (prec e2) then body e2 else parens (body e2))).
    { unfold right_toks. rewrite (first_level _ 3 e2 gap [] W2), <- (begins_digit _ (at_level_begins 3 e2 [] W2)), (LV 3%nat e2 [] IHe2 W2). cbn [app].
      destruct (digit_first _).
      - exists (paren_toks [] (toks e2 [])). split; [apply begins_paren|]. split; [reflexivity|]. rewrite !src_paren, (IHe2 [] W2). split; reflexivity.
      - exists (at_level 3%nat e2 []). split; [apply at_level_begins, W2|]. split; [intro; apply first_level, W2|]. rewrite (LV 3%nat e2 gap IHe2 W2), (LV 3%nat e2 [] IHe2 W2). split; reflexivity. }
    destruct R as (ts & B & Ef & E1 & E2). cbv zeta. rewrite <- E2, (begins_opens _ B), <- !Ef, src_app, E1. rewrite (app_assoc ld). f_equal.
    unfold left_toks, clash. replace (right_text gap e2) with (src ts) by exact E2. destruct (is_greek e1 || _ || _); [rewrite src_paren, (IHe1 [] W1); reflexivity|apply (LV 4%nat e1 ld IHe1 W1)].
Qed.

(** A word is found whatever follows a given text *)
Definition fits (w : word) (pre : pystr) : Prop := forall r, lex_one (snd w ++ pre ++ r) = Some (fst w, List.length (snd w)).
Definition fits_end (w : word) : Prop := lex_one (snd w) = Some (fst w, List.length (snd w)).
Definition spaced (w : word) : Prop := forall r, lex_one (32 :: snd w ++ r) = Some (K_WS, 1%nat).
Fixpoint good (ts : list token) : Prop :=
  match ts with
  | [] => True
  | t :: r => lex_one (text t ++ src r) = Some (kind t, List.length (text t)) /\ skipped (kind t) = false /\ text t <> [] /\
              (lead t = [] \/ lead t = [32] /\ lex_one (src ts) = Some (K_WS, 1%nat)) /\ good r
  end.
Lemma skipn_app_len {A} (a b : list A) : skipn (List.length a) (a ++ b) = b.
Proof. rewrite skipn_app, skipn_all, Nat.sub_diag. reflexivity. Qed.
Lemma firstn_app_len {A} (a b : list A) : firstn (List.length a) (a ++ b) = a.
Proof. rewrite firstn_app, firstn_all, Nat.sub_diag. apply app_nil_r. Qed.
Lemma lex_go_good ts : good ts -> forall n, (List.length (src ts) <= n)%nat -> lex_go n [] (src ts) = Some ts.
Proof.
  induction ts as [|[k s ld] ts IH]; intros G n L.
  - cbn. destruct n; reflexivity.
  - destruct G as (E & Sk & Ne & Ld & G). cbn [text kind lead] in *.
    assert (Main : forall n pre, (List.length (s ++ src ts) <= n)%nat -> lex_go n pre (s ++ src ts) = Some (Tok k s pre :: ts)).
    { intros n0 pre L0. destruct n0 as [|n0]; [destruct s; [congruence|cbn in L0; lia]|]. cbn [lex_go].
      destruct (s ++ src ts) as [|c x] eqn:Ex; [destruct s; [congruence|discriminate]|]. rewrite <- Ex in *. rewrite E, firstn_app_len, skipn_app_len, Sk.
      rewrite IH; [reflexivity|exact G|]. rewrite app_length in L0. destruct s; [congruence|cbn in L0; lia]. }
    change (src (Tok k s ld :: ts)) with ((ld ++ s) ++ src ts) in *. destruct Ld as [->|[-> W]]; [apply Main, L|].
    change (([32] ++ s) ++ src ts) with (32 :: (s ++ src ts)) in *. destruct n as [|n]; [cbn in L; lia|]. cbn [lex_go]. rewrite W.
    cbn [firstn skipn]. change (skipped K_WS) with true. cbv iota. apply Main. cbn in L. lia.
Qed.
Definition may_lead (ld : pystr) (w : word) : Prop := ld = [] \/ ld = [32] /\ spaced w.
Definition meets (w : word) (rest : list token) : Prop :=
  rest = [] /\ fits_end w \/ exists pre r, src rest = pre ++ r /\ fits w pre.
Lemma good_cons w ld rest : skipped (fst w) = false /\ snd w <> [] -> may_lead ld w -> meets w rest -> good rest -> good (tok w ld :: rest).
Proof.
  intros [Sk Ne] Ld M G. cbn [good text kind lead tok]. split; [|split; [exact Sk|split; [exact Ne|split; [|exact G]]]].
  - destruct M as [[-> F]|(pre & r & E & F)]; [cbn; rewrite app_nil_r; exact F|]. rewrite E. apply F.
  - destruct Ld as [->|[-> Sp]]; [left; reflexivity|right; split; [reflexivity|]].
    change (src (tok w [32] :: rest)) with (([32] ++ snd w) ++ src rest). apply Sp.
Qed.
Lemma begins_src ts ld ws : begins ts ld ws -> exists w r, In w ws /\ src ts = (ld ++ snd w) ++ r.
Proof. intros (w & r & -> & H). exists w, (src r). split; [exact H|reflexivity]. Qed.

(** The words that may follow an operand, and those that may end one *)
Definition ops : list op := [Plus; Minus; Star; Cdot; Times; Slash; Obelus; Colon; Modulo].
(** Relations and arrows: those that begin with an equals sign, the other symbols, and the commands *)
Definition equalities : list word := [(K_ASSIGNMENT, u "="); (K_EQUAL, u "==")].
Definition comparisons : list word := [(K_GT, u ">"); (K_UNEQUAL, u "!=")].
Definition arrows : list word := map (pair K_LIM_APPROACH_SYM) [u "\to"; u "\rightarrow"; u "\Rightarrow"; u "\longrightarrow"; u "\Longrightarrow"].
Definition rel_commands : list word :=   (* a less-than sign and a minus sign may be the beginning of an arrow *)
  (K_LT, u "<") :: map (pair K_EQUAL) [u "\equiv"] ++ map (pair K_LTE) [u "\leq"; u "\le"; u "\leqslant"] ++ map (pair K_GTE) [u "\geq"; u "\ge"; u "\geqslant"] ++
  map (pair K_UNEQUAL) [u "\ne"; u "\neq"; u "\not\equiv"].
Definition followers : list word := map w_op ops ++ [w_caret; w_bang; w_rparen; w_rbrace; w_rbracket; w_right; w_rfloor; w_rceil] ++ comparisons ++ rel_commands ++ arrows.
Definition enders : list word := map w_sym symbols ++ [w_pi; w_rparen; w_rbrace; w_bar; w_bang; w_rfloor; w_rceil; w_percent].
Definition openers : list word := [w_op Plus; w_op Minus; w_op Star; w_op Slash; w_op Colon; w_lparen; w_lbrace; w_lbracket; w_bar].
Definition spacers : list word := [w_op Cdot; w_op Times; w_op Obelus; w_op Modulo; w_lfloor; w_lceil].
Definition couples : list (word * word) :=
  [(w_frac, w_lbrace); (w_binom, w_lbrace); (w_sqrt, w_lbrace); (w_sqrt, w_lbracket); (w_left, w_bar); (w_right, w_bar);
   (w_rbrace, w_lbrace); (w_rbracket, w_lbrace); (w_e, w_caret)] ++ map (fun f => (w_fn f, w_lparen)) functions.
Definition after_digits : list word := digit_words ++ followers ++ [w_period; w_percent; w_comma] ++ other_starters ++ equalities.

(** Only the rules that can begin with the first character count. *)
Fixpoint dead (r : regex) (c : N) : bool :=
  match r with
  | RChr k => negb (cls_in k c)
  | RSeq a _ => dead a c
  | RAlt a b => dead a c && dead b c
  | RGrp _ a => dead a c
  | _ => false
  end.
Lemma dead_none r c : dead r c = true -> forall pre s cs, matches r (MSt pre (c :: s) cs) = [].
Proof.
  induction r; cbn [dead]; intro H; try discriminate H; intros pre s cs; cbn [matches after].
  - apply negb_true_iff in H. rewrite H. reflexivity.
  - rewrite IHr1 by exact H. reflexivity.
  - apply andb_true_iff in H. destruct H as [H1 H2]. rewrite IHr1 by exact H1. rewrite IHr2 by exact H2. reflexivity.
  - rewrite IHr by exact H. reflexivity.
Qed.
(** [x] and [p] do not differ where both have a character *)
Fixpoint compatible (x p : pystr) : bool :=
  match x, p with c :: x', d :: p' => (c =? d) && compatible x' p' | _, _ => true end.
Lemma compatible_start x p t : starts_with x (p ++ t) = true -> compatible x p = true.
Proof.
  revert p. induction x as [|c x IH]; intros [|d p]; try reflexivity. cbn [app starts_with compatible]. intro H. apply andb_true_iff in H. destruct H as [-> H]. exact (IH p H).
Qed.
Fixpoint shrink (p : pystr) (l : list (N * lrule)) : list (N * lrule) :=
  match l with
  | [] => []
  | (k, r) :: l' =>
    match r with
    | Lits ws => match filter (fun x => compatible x p) ws with [] => shrink p l' | ws' => (k, Lits ws') :: shrink p l' end
    | Chars x => if cls_in x (hd 0 p) then (k, r) :: shrink p l' else shrink p l'
    | Pat x => if dead x (hd 0 p) then shrink p l' else (k, r) :: shrink p l'
    end
  end.
Lemma lits_shrink p ws t : lits_len ws (p ++ t) = lits_len (filter (fun x => compatible x p) ws) (p ++ t).
Proof.
  unfold lits_len. generalize 0%nat. induction ws as [|x ws IH]; intro m; [reflexivity|]. cbn [filter fold_left]. destruct (compatible x p) eqn:C; [cbn [fold_left]; apply IH|].
  destruct (starts_with x (p ++ t)) eqn:S; [apply compatible_start in S; congruence|apply IH].
Qed.
Lemma best_zero l s k m k' r : rule_len r s = 0%nat -> best ((k', r) :: l) s k m = best l s k m.
Proof. intro H. cbn [best]. rewrite H. reflexivity. Qed.
Lemma shrink_best c q l t : forall k m, best l ((c :: q) ++ t) k m = best (shrink (c :: q) l) ((c :: q) ++ t) k m.
Proof.
  induction l as [|[k' r] l IH]; intros k m; [reflexivity|]. destruct r as [ws|x|x]; cbn [shrink hd].
  - destruct (filter (fun x => compatible x (c :: q)) ws) as [|w ws'] eqn:F.
    + rewrite best_zero; [apply IH|]. cbn [rule_len]. rewrite lits_shrink, F. reflexivity.
    + cbn [best]. cbn [rule_len]. rewrite lits_shrink, F. destruct (Nat.ltb _ _); apply IH.
  - destruct (cls_in x c) eqn:F; [cbn [best]; destruct (Nat.ltb _ _); apply IH|]. rewrite best_zero; [apply IH|]. cbn [rule_len app]. rewrite F. reflexivity.
  - destruct (dead x c) eqn:F; [|cbn [best]; destruct (Nat.ltb _ _); apply IH]. rewrite best_zero; [apply IH|]. cbn [rule_len app]. rewrite (dead_none _ _ F). reflexivity.
Qed.
Definition is_tok (rs : list (N * lrule)) (s : pystr) (w : word) : bool :=
  let (k, n) := best rs s 0 0 in (k =? fst w) && Nat.eqb n (List.length (snd w)) && negb (Nat.eqb n 0).
Lemma tok_gen l rs w t : snd w <> [] -> shrink (snd w) l = rs -> is_tok rs (snd w ++ t) w = true ->
  match best l (snd w ++ t) 0 0 with (_, O) => None | (k, n) => Some (k, n) end = Some (fst w, List.length (snd w)).
Proof.
  intros N <- H. assert (B : best l (snd w ++ t) 0 0 = best (shrink (snd w) l) (snd w ++ t) 0 0).
  { destruct (snd w) as [|c q]; [contradiction|]. apply shrink_best. }
  rewrite B. unfold is_tok in H. destruct (best _ _ _ _) as [k n]. apply andb_true_iff in H. destruct H as [H Z]. apply andb_true_iff in H.
  destruct H as [H1 H2]. apply N.eqb_eq in H1. apply Nat.eqb_eq in H2. subst k. destruct n as [|n]; [discriminate Z|]. rewrite H2. reflexivity.
Qed.
Lemma tok_lex rs w t : snd w <> [] -> shrink (snd w) rules = rs -> is_tok rs (snd w ++ t) w = true -> lex_one (snd w ++ t) = Some (fst w, List.length (snd w)).
Proof. exact (tok_gen rules rs w t). Qed.
Definition row_beside (rs : list (N * lrule)) (w : word) (l : list word) : Prop :=
  snd w <> [] /\ shrink (snd w) rules = rs /\ forall r, forallb (fun v => risky (snd w) (snd v) || is_tok rs (snd w ++ snd v ++ r) w) l = true.
Lemma beside_fits rs w l : row_beside rs w l -> Forall (fun v => risky (snd w) (snd v) = true \/ fits w (snd v)) l.
Proof.
  intros (B & S & H). apply Forall_forall. intros v Hv. destruct (risky (snd w) (snd v)) eqn:R; [left; reflexivity|right]. intro r.
  specialize (H r). rewrite forallb_forall in H. specialize (H v Hv). rewrite R in H. exact (tok_lex rs w _ B S H).
Qed.
Ltac row := match goal with
  | |- Forall (fun v => risky (snd ?w) (snd v) = true \/ _) _ => let rs := eval vm_compute in (shrink (snd w) rules) in apply (beside_fits rs)
  end; split; [discriminate|split; [vm_compute; reflexivity|intro; vm_compute; reflexivity]].
Ltac table := repeat (apply Forall_cons || apply Forall_nil || (intro; vm_compute; reflexivity) || (vm_compute; reflexivity)).
Ltac table2 := match goal with |- Forall (fun w => Forall ?P ?l) ?l' =>
  let l1 := eval vm_compute in l in let l2 := eval vm_compute in l' in change (Forall (fun w => Forall P l1) l2) end.
Ltac norm_list := repeat match goal with |- context [Forall ?P ?l] => progress (let x := eval vm_compute in l in change (Forall P l) with (Forall P x)) end.
Lemma t_enders : Forall (fun w => fits_end w /\ Forall (fun v => fits w (snd v)) followers) enders.
Proof. repeat (apply Forall_cons; [split; [vm_compute; reflexivity|table]|]). apply Forall_nil. Qed.
(** an exclamation mark and an equals sign are one token *)
Definition calm_enders : list word := map w_sym symbols ++ [w_pi; w_rparen; w_rbrace; w_bar; w_rfloor; w_rceil; w_percent].
Lemma t_equalities : Forall (fun w => Forall (fun v => fits w (snd v)) equalities) calm_enders.
Proof. table. Qed.
Lemma t_rel_openers : Forall (fun w => Forall (fun v => fits w (snd v)) starters) (equalities ++ comparisons).
Proof. table. Qed.
Lemma t_rel_commands : Forall (fun w => fits w [32]) (rel_commands ++ arrows).
Proof. table. Qed.
Lemma t_openers : Forall (fun w => Forall (fun v => fits w (snd v)) starters) openers.
Proof. table. Qed.
Lemma t_spacers : Forall (fun w => fits w [32]) spacers.
Proof. table. Qed.
Lemma t_tight : Forall (fun w => Forall (fun v => fits w (snd v)) starters) spacers.
Proof. table. Qed.
Lemma t_spaced : Forall spaced starters.
Proof. table. Qed.
Lemma t_caret : Forall (fun v => fits w_caret (123 :: snd v)) starters.
Proof. table. Qed.
Lemma t_couples : Forall (fun p => fits (fst p) (snd (snd p))) couples.
Proof. table. Qed.
Lemma t_digits : Forall (fun w => fits_end w /\ Forall (fun v => fits w (snd v)) after_digits) digit_words.
Proof. repeat (apply Forall_cons; [split; [vm_compute; reflexivity|table]|]). apply Forall_nil. Qed.
Lemma t_period : Forall (fun v => fits w_period (snd v)) digit_words.
Proof. table. Qed.
Lemma t_words : Forall (fun w => skipped (fst w) = false /\ snd w <> []) (starters ++ enders ++ openers ++ spacers ++ map fst couples ++ [w_caret; w_period] ++ equalities ++ comparisons ++ rel_commands ++ arrows).
Proof. repeat (apply Forall_cons; [split; [reflexivity|discriminate]|]). apply Forall_nil. Qed.

Lemma words_ok w : In w (starters ++ enders ++ openers ++ spacers ++ map fst couples ++ [w_caret; w_period] ++ equalities ++ comparisons ++ rel_commands ++ arrows) ->
  skipped (fst w) = false /\ snd w <> [].
Proof. intro H. pose proof t_words as T. rewrite Forall_forall in T. apply T, H. Qed.
Ltac pick l := lazymatch l with O => apply in_or_app; left | S ?n => apply in_or_app; right; pick n end.
(** what may follow a text: an equals sign, if the text does not end with an exclamation mark *)
Definition calm (s : pystr) : Prop := last s 0 <> 33.
(** it does not end with a Greek letter *)
Definition airy (s : pystr) : Prop := forall p g, In g greeks -> s <> p ++ g.
(** what comes next does not change the last token of the text *)
Definition parted (s : pystr) (rest : list token) : Prop :=
  (forall c, ascii_digit c -> meets (w_digit c) rest) /\ forall w p, In w enders -> s = p ++ snd w -> meets w rest.
Definition follows (s : pystr) (rest : list token) : Prop :=
  rest = [] \/ begins rest [] followers \/ begins rest [] equalities /\ calm s \/ parted s rest.
Lemma t_enders_space : Forall (fun w => fits w [32] \/ In (snd w) greeks) (enders ++ digit_words).
Proof. repeat (apply Forall_cons; [first [left; intro; vm_compute; reflexivity | right; vm_compute; tauto]|]). apply Forall_nil. Qed.
Lemma lead_starter ld w : In w starters -> ld = [] \/ ld = [32] -> may_lead ld w.
Proof. intros H [E|E]; subst ld; [left; reflexivity|right; split; [reflexivity|]]. pose proof t_spaced as T. rewrite Forall_forall in T. apply T, H. Qed.
Lemma no_lead w : may_lead [] w.
Proof. left; reflexivity. Qed.
Lemma meets_word w v rest : fits w (snd v) -> meets w (tok v [] :: rest).
Proof. intro F. right. exists (snd v), (src rest). split; [reflexivity|exact F]. Qed.
Lemma enders_calm w : In w enders -> calm (snd w) -> In w calm_enders.
Proof.
  intros H C. unfold enders in H. unfold calm_enders. apply in_app_or in H. apply in_or_app. destruct H as [H|H]; [left; exact H|right].
  cbn in H |- *. repeat (destruct H as [H|H]; [subst; try (exfalso; apply C; reflexivity); tauto|]). destruct H.
Qed.
Lemma good_ender w ld rest : In w enders -> may_lead ld w -> follows (snd w) rest -> good rest -> good (tok w ld :: rest).
Proof.
  intros H Ld F G. apply good_cons; [apply words_ok; pick 1%nat; exact H|exact Ld| |exact G].
  pose proof t_enders as T. rewrite Forall_forall in T. destruct (T _ H) as [Te Tf]. rewrite Forall_forall in Tf.
  destruct F as [->|[(v & r & -> & Hv)|[[(v & r & -> & Hv) C]|[_ M]]]]; [left; auto|apply meets_word, Tf, Hv| |apply (M w []); [exact H|reflexivity]].
  pose proof t_equalities as T'. rewrite Forall_forall in T'. specialize (T' w (enders_calm w H C)). rewrite Forall_forall in T'. apply meets_word, T', Hv.
Qed.
Lemma good_rel_opener w rest : In w (equalities ++ comparisons) -> begins rest [] starters -> good rest -> good (tok w [] :: rest).
Proof.
  intros H (v & r & -> & Hv) G. apply good_cons; [apply words_ok; do 6 (apply in_or_app; right)|apply no_lead| |exact G].
  - apply in_app_or in H. destruct H as [H|H]; [apply in_or_app; left; exact H|apply in_or_app; right; apply in_or_app; left; exact H].
  - pose proof t_rel_openers as T. rewrite Forall_forall in T. specialize (T _ H). rewrite Forall_forall in T. apply meets_word, T, Hv.
Qed.
Lemma good_rel_command w rest : In w (rel_commands ++ arrows) -> begins rest [32] starters -> good rest -> good (tok w [] :: rest).
Proof.
  intros H (v & r & -> & Hv) G. apply good_cons; [apply words_ok; do 8 (apply in_or_app; right); exact H|apply no_lead| |exact G].
  pose proof t_rel_commands as T. rewrite Forall_forall in T. right. exists [32], (snd v ++ src r). split; [|apply T, H].
  change (src (tok v [32] :: r)) with (([32] ++ snd v) ++ src r). rewrite <- app_assoc. reflexivity.
Qed.
Lemma good_opener w ld rest : In w openers -> may_lead ld w -> begins rest [] starters -> good rest -> good (tok w ld :: rest).
Proof.
  intros H Ld (v & r & -> & Hv) G. apply good_cons; [apply words_ok; pick 2%nat; exact H|exact Ld| |exact G].
  pose proof t_openers as T. rewrite Forall_forall in T. specialize (T _ H). rewrite Forall_forall in T. apply meets_word, T, Hv.
Qed.
Lemma good_couple w v ld rest : In (w, v) couples -> may_lead ld w -> good (tok v [] :: rest) -> good (tok w ld :: tok v [] :: rest).
Proof.
  intros H Ld G. apply good_cons; [apply words_ok; pick 4%nat; apply (in_map fst) in H; exact H|exact Ld| |exact G].
  pose proof t_couples as T. rewrite Forall_forall in T. apply meets_word. apply (T _ H).
Qed.
Lemma good_caret rest : begins rest [] starters -> good (tok w_lbrace [] :: rest) -> good (tok w_caret [] :: tok w_lbrace [] :: rest).
Proof.
  intros (v & r & -> & Hv) G. apply good_cons; [apply words_ok; do 5 (apply in_or_app; right); apply in_or_app; left; cbn; tauto|apply no_lead| |exact G].
  pose proof t_caret as T. rewrite Forall_forall in T. right. exists (123 :: snd v), (src r). split; [reflexivity|apply T, Hv].
Qed.
Lemma good_digits_gen ds ld rest : numeral ds -> ld = [] \/ ld = [32] -> good rest -> (forall c, ascii_digit c -> meets (w_digit c) rest) -> good (digits ld ds ++ rest).
Proof.
  intros [F N] Ld G B. destruct ds as [|c r]; [congruence|]. cbn [digits app]. clear N.
  assert (T0 : forall c, ascii_digit c -> forall ld r, ld = [] \/ ld = [32] -> meets (w_digit c) r -> good r -> good (tok (w_digit c) ld :: r)).
  { intros c0 Hc ld0 r0 Ld0 B0 G0. apply good_cons; [apply words_ok; pick 0%nat; apply incl_digits, digit_word, Hc|apply lead_starter; [apply incl_digits, digit_word, Hc|exact Ld0]|exact B0|exact G0]. }
  inversion F as [|? ? Hc Fr]; subst.
  assert (X : good (map (fun c => tok (w_digit c) []) r ++ rest) /\ forall c, ascii_digit c -> meets (w_digit c) (map (fun c => tok (w_digit c) []) r ++ rest)).
  { clear Hc F c Ld. induction Fr as [|d r Hd Fr IH]; [split; assumption|]. destruct IH as [G' B']. cbn [map app]. split; [apply T0; auto|].
    intros c Hc. pose proof t_digits as T. rewrite Forall_forall in T. destruct (T _ (digit_word _ Hc)) as [_ Tf]. rewrite Forall_forall in Tf.
    apply meets_word, Tf. apply in_or_app; left. apply digit_word, Hd. }
  destruct X as [G' B']. apply T0; auto.
Qed.
Lemma greek_long g : In g greeks -> exists c d r, g = c :: d :: r.
Proof. intro H. cbn in H. repeat (destruct H as [H|H]; [subst g; eexists _, _, _; reflexivity|]). destruct H. Qed.
Lemma airy_char c : airy [c].
Proof. intros p g H E. destruct (greek_long g H) as (a & b & r & ->). destruct p as [|x [|y p]]; discriminate E. Qed.
Lemma digits_meet rest c : rest = [] \/ begins rest [] after_digits -> ascii_digit c -> meets (w_digit c) rest.
Proof.
  intros B Hc. pose proof t_digits as T. rewrite Forall_forall in T. destruct (T _ (digit_word _ Hc)) as [Te Tf]. rewrite Forall_forall in Tf.
  destruct B as [->|(v & r' & -> & Hv)]; [left; auto|apply meets_word, Tf, Hv].
Qed.
Lemma good_digits ds ld rest : numeral ds -> ld = [] \/ ld = [32] -> good rest -> rest = [] \/ begins rest [] after_digits -> good (digits ld ds ++ rest).
Proof. intros Nd Ld G B. apply good_digits_gen; auto. intros c Hc. apply digits_meet; assumption. Qed.
Lemma follows_digits s rest c : follows s rest -> ascii_digit c -> meets (w_digit c) rest.
Proof.
  intros [->|[B|[[B _]|[M _]]]] Hc; [apply digits_meet; [left; reflexivity|exact Hc]|apply digits_meet; [right|exact Hc]..|apply M, Hc].
  - apply (begins_more _ _ _ _ B). intros w H. apply in_or_app; right; apply in_or_app; left; exact H.
  - apply (begins_more _ _ _ _ B). intros w H. unfold after_digits. do 4 (apply in_or_app; right). exact H.
Qed.
Lemma follow w s rest : In w followers -> follows s (tok w [] :: rest).
Proof. intro H. right; left. exists w, rest. auto. Qed.
Lemma last_app_ne (a b : pystr) d : b <> [] -> last (a ++ b) d = last b d.
Proof.
  intro N. induction a as [|c a IH]; [reflexivity|]. cbn [app last]. rewrite IH. destruct (a ++ b) eqn:E; [|reflexivity].
  apply app_eq_nil in E. destruct E. congruence.
Qed.
Lemma follows_end a b rest : b <> [] -> follows (a ++ b) rest -> follows b rest.
Proof.
  intros N [F|[F|[[F C]|[M1 M2]]]]; [left; exact F|right; left; exact F|right; right; left|right; right; right].
  - split; [exact F|]. unfold calm in *. rewrite last_app_ne in C by exact N. exact C.
  - split; [exact M1|]. intros w p H E. apply (M2 w (a ++ p) H). rewrite E, app_assoc. reflexivity.
Qed.
Lemma first_is_begins ts : begins ts [] starters -> first_is K_DIGIT ts = false -> begins ts [] other_starters.
Proof.
  intros (w & r & -> & H) E. apply in_app_or in H. destruct H as [H|H]; [|exists w, r; auto].
  exfalso. unfold digit_words in H. apply in_map_iff in H. destruct H as (c & <- & _). discriminate E.
Qed.
Ltac mem := cbn; tauto.
Lemma sym_ender x : In x symbols -> In (w_sym x) enders.
Proof. intro H. apply in_or_app; left; apply in_map, H. Qed.
Lemma sym_starter x : In x symbols -> In (w_sym x) starters.
Proof. intro H. apply in_or_app; right; apply in_or_app; left; apply in_map, H. Qed.
Lemma named_starter w : In w [w_pi; w_lparen; w_minus; w_e; w_frac; w_binom; w_sqrt; w_left; w_lfloor; w_lceil] -> In w starters.
Proof. intro H. do 3 (apply in_or_app; right). exact H. Qed.
Lemma named_ender w : In w [w_pi; w_rparen; w_rbrace; w_bar; w_bang; w_rfloor; w_rceil; w_percent] -> In w enders.
Proof. intro H. apply in_or_app; right. exact H. Qed.
Lemma op_follower o : In (w_op o) followers.
Proof. apply in_or_app; left. apply in_map. destruct o; cbn; tauto. Qed.
Lemma fn_couple f : In f functions -> In (w_fn f, w_lparen) couples.
Proof. intro H. apply in_or_app; right. apply (in_map (fun f => (w_fn f, w_lparen))), H. Qed.
Lemma fn_starter f : In f functions -> In (w_fn f) starters.
Proof. intro H. apply in_or_app; right; apply in_or_app; right; apply in_or_app; left. apply in_map, H. Qed.
Hypothesis Hgap : gap = [] \/ gap = [32].
Lemma good_spacer w ld rest : In w spacers -> may_lead ld w -> begins rest gap starters -> good rest -> good (tok w ld :: rest).
Proof.
  intros H Ld (v & r & -> & Hv) G. apply good_cons; [apply words_ok; pick 3%nat; exact H|exact Ld| |exact G].
  destruct Hgap as [Eg|Eg]; rewrite Eg.
  - pose proof t_tight as T. rewrite Forall_forall in T. specialize (T _ H). rewrite Forall_forall in T. apply meets_word, T, Hv.
  - pose proof t_spacers as T. rewrite Forall_forall in T. right. exists [32], (snd v ++ src r). split; [|apply T, H].
    change (src (tok v [32] :: r)) with (([32] ++ snd v) ++ src r). rewrite <- app_assoc. reflexivity.
Qed.
Lemma body_ne e : wf e -> body e <> [].
Proof.
  intro W. rewrite <- (src_toks e [] W : src (toks e []) = body e). destruct (toks_begin e [] W) as (w & r & -> & H).
  pose proof starters_nonempty as T. rewrite Forall_forall in T. specialize (T w H). unfold src. cbn [flat_map lead text tok app].
  intro E. apply app_eq_nil in E. destruct E as [E _]. contradiction.
Qed.
Lemma follows_last s c rest : last s 0 = c -> follows s rest -> follows [c] rest.
Proof.
  intros E [F|[F|[[F C]|[M1 M2]]]]; [left; exact F|right; left; exact F|right; right; left|right; right; right].
  - split; [exact F|]. unfold calm in *. cbn [last]. rewrite <- E. exact C.
  - split; [exact M1|]. intros w p H E'. destruct p as [|x [|y p]]; [|injection E' as _ E'|discriminate E'].
    + cbn [app] in E'. destruct s as [|x s]; [|apply (M2 w (removelast (x :: s)) H); rewrite <- E', <- E; apply app_removelast_last; discriminate].
      cbn in E. subst c. exfalso. assert (T : forallb (fun w => negb (str_eqb (snd w) [0])) enders = true) by (vm_compute; reflexivity).
      rewrite forallb_forall in T. specialize (T w H). rewrite <- E' in T. discriminate T.
    + exfalso. apply (proj2 (words_ok w ltac:(pick 1%nat; exact H))). symmetry. exact E'.
Qed.
Lemma t_beside : Forall (fun w => In (snd w) greeks \/ Forall (fun v => risky (snd w) (snd v) = true \/ fits w (snd v)) other_starters) (enders ++ digit_words).
Proof.
  repeat (apply Forall_cons; [first [left; vm_compute; tauto | right; row]|]).
  apply Forall_nil.
Qed.
Lemma risky_last s t p w : s = p ++ w -> w <> [] -> risky s t = risky w t.
Proof. intros -> N. unfold risky. rewrite last_app_ne by exact N. reflexivity. Qed.
Lemma risky_first w t t' : firstn 1 t = firstn 1 t' -> risky w t = risky w t'.
Proof. unfold risky. intros ->. reflexivity. Qed.
Lemma digits_calm c t : ascii_digit c -> risky [c] t = false.
Proof.
  intro H. unfold ascii_digit in H. assert (E : c = 48 \/ c = 49 \/ c = 50 \/ c = 51 \/ c = 52 \/ c = 53 \/ c = 54 \/ c = 55 \/ c = 56 \/ c = 57) by lia.
  repeat destruct E as [->|E]; subst; reflexivity.
Qed.
Lemma follow_gap s rest r : begins rest gap other_starters -> src rest = gap ++ r -> airy s -> risky s r = false -> follows s rest.
Proof.
  intros (v & r0 & -> & Hv) Er Ai Ri. right; right; right.
  assert (R0 : r = snd v ++ src r0). { change (src (tok v gap :: r0)) with ((gap ++ snd v) ++ src r0) in Er. rewrite <- app_assoc in Er. apply app_inv_head in Er. symmetry. exact Er. }
  assert (Nv : exists x y, snd v = x :: y).
  { assert (T : forallb (fun v : word => match snd v with [] => false | _ => true end) other_starters = true) by (vm_compute; reflexivity).
    rewrite forallb_forall in T. specialize (T v Hv). destruct (snd v) as [|x y]; [discriminate|eauto]. }
  assert (MT : forall w, In w (enders ++ digit_words) -> ~ In (snd w) greeks -> risky (snd w) (snd v) = false -> meets w (tok v gap :: r0)).
  { intros w Hw Ng Rk. destruct Hgap as [Eg|Eg]; rewrite Eg.
    - pose proof t_beside as T. rewrite Forall_forall in T. destruct (T w Hw) as [X|X]; [contradiction|]. rewrite Forall_forall in X. destruct (X v Hv) as [Y|Y]; [congruence|]. apply meets_word, Y.
    - pose proof t_enders_space as T. rewrite Forall_forall in T. destruct (T w Hw) as [X|X]; [|contradiction]. right. exists [32], (snd v ++ src r0). split; [|exact X].
      change (src (tok v [32] :: r0)) with (([32] ++ snd v) ++ src r0). rewrite <- app_assoc. reflexivity. }
  assert (Rv : forall w, risky w r = risky w (snd v)). { intro w. apply risky_first. destruct Nv as (x & y & E). rewrite R0, E. reflexivity. }
  split.
  - intros c Hc. apply MT; [apply in_or_app; right; apply digit_word, Hc| |rewrite <- Rv; apply digits_calm, Hc].
    intro H. cbn [snd w_digit] in H. destruct (greek_long _ H) as (a & b & r' & E). discriminate E.
  - intros w p Hw E. apply MT; [apply in_or_app; left; exact Hw|intro H; exact (Ai p _ H E)|]. rewrite <- Rv, <- (risky_last s r p (snd w) E); [exact Ri|].
    apply (proj2 (words_ok w ltac:(pick 1%nat; exact Hw))).
Qed.
(** a text that does not end with a small letter *)
Lemma airy_last s c : (97 <=? c) && (c <=? 122) = false -> airy (s ++ [c]).
Proof.
  intros Hc p g H E. assert (T : forallb (fun g => (97 <=? last g 0) && (last g 0 <=? 122)) greeks = true) by reflexivity.
  rewrite forallb_forall in T. specialize (T g H). assert (L : last (s ++ [c]) 0 = last (p ++ g) 0) by (rewrite E; reflexivity).
  rewrite !last_app_ne in L; [|destruct (greek_long g H) as (? & ? & ? & ->); discriminate|discriminate]. cbn [last] in L. rewrite <- L, Hc in T. discriminate T.
Qed.
Lemma airy_end s t : (exists a c, t = a ++ [c] /\ (97 <=? c) && (c <=? 122) = false) -> airy (s ++ t).
Proof. intros (a & c & -> & H). rewrite app_assoc. apply airy_last, H. Qed.
Lemma airy_numeral s ds : numeral ds -> airy (s ++ ds).
Proof.
  intros [F N]. destruct (exists_last N) as (a & c & ->). apply airy_end. exists a, c. split; [reflexivity|]. apply Forall_app in F. destruct F as [_ F]. inversion F; subst.
  unfold ascii_digit in *. destruct (N.leb_spec 97 c); [lia|reflexivity].
Qed.
Lemma w_sym_text x : In x symbols -> snd (w_sym x) = x.
Proof. intro H. assert (T : forallb (fun x => str_eqb (snd (w_sym x)) x) symbols = true) by (vm_compute; reflexivity). rewrite forallb_forall in T. apply str_eqb_eq, T, H. Qed.
Ltac last_part := let Ee := fresh in intro Ee; repeat (apply app_eq_nil in Ee; destruct Ee as [_ Ee]); first [discriminate Ee | revert Ee; apply body_ne; tauto].
Ltac at_end Fo := cbn [Arith.body] in Fo; repeat match type of Fo with follows (?a ++ ?b) _ => apply (follows_end a b) in Fo; [|last_part] end; first [exact Fo | refine (follows_last _ _ _ eq_refl Fo)].
Lemma level_ne l e : wf e -> (if Nat.leb l (prec e) then body e else parens (body e)) <> [].
Proof. intro W. destruct (Nat.leb _ _); [apply body_ne, W|discriminate]. Qed.
Lemma follows_level l e rest : follows (if Nat.leb l (prec e) then body e else parens (body e)) rest -> follows (if Nat.leb l (prec e) then body e else u ")") rest.
Proof. destruct (Nat.leb _ _); [exact (fun x => x)|]. unfold parens. intro F. at_end F. Qed.
(** two texts with the same last command *)
Lemma last_command (x y : pystr) : existsb (N.eqb 92) x = false -> existsb (N.eqb 92) y = false -> forall a b, a ++ 92 :: x = b ++ 92 :: y -> x = y.
Proof.
  intros Hx Hy. assert (X : forall z : pystr, existsb (N.eqb 92) z = false -> forall b w, z <> b ++ 92 :: w).
  { intros z Hz b w ->. rewrite existsb_app in Hz. cbn in Hz. rewrite Bool.orb_true_r in Hz. discriminate. }
  induction a as [|c a IH]; intros [|d b] E; cbn [app] in E; injection E; intros; subst.
  - reflexivity.
  - exfalso. eapply X; [exact Hx|reflexivity].
  - exfalso. eapply X; [exact Hy|reflexivity].
  - eapply IH. eassumption.
Qed.
Lemma airy_command s w : existsb (N.eqb 92) w = false -> existsb (fun g => str_eqb g (92 :: w)) greeks = false -> airy (s ++ 92 :: w).
Proof.
  intros Hw Hg p g H E. assert (T : forallb (fun g => match g with 92 :: x => negb (existsb (N.eqb 92) x) | _ => false end) greeks = true) by reflexivity.
  rewrite forallb_forall in T. specialize (T g H). cbv beta in T. destruct g as [|c g]; [discriminate|].
  destruct (N.eqb_spec c 92) as [->|Nc]; [|exfalso; destruct c as [|q]; [discriminate T|]; repeat (destruct q as [q|q|]; try discriminate T); apply Nc; reflexivity].
  apply Bool.negb_true_iff in T. assert (Eg := last_command w g Hw T s p E). subst g. assert (X : existsb (fun g => str_eqb g (92 :: w)) greeks = true); [|congruence].
  apply existsb_exists. exists (92 :: w). split; [exact H|]. apply str_eqb_eq. reflexivity.
Qed.
Lemma airy_parens s : airy (parens s).
Proof. unfold parens. rewrite app_assoc. apply airy_last. reflexivity. Qed.
Lemma airy_body a : wf a -> (4 <= prec a)%nat -> is_greek a = false -> airy (body a).
Proof.
  destruct a; cbn [wf prec Arith.body is_greek]; intros W L Ng; try lia.
  - apply (airy_numeral [] ds W).
  - rewrite app_assoc. apply airy_numeral, W.
  - apply (airy_end ds). exists [92], 37. split; reflexivity.
  - unfold symbols in W. apply in_app_or in W. destruct W as [W|W]; [apply in_map_iff in W; destruct W as (c & <- & _); apply airy_char|].
    assert (T : forallb (fun x => is_greek (Sym x)) greeks = true) by reflexivity. rewrite forallb_forall in T. specialize (T x W). cbn [is_greek] in T. congruence.
  - intros p g H E. cbn in H. repeat (destruct H as [H|H]; [subst g; revert E; do 4 (destruct p as [|? p]; [discriminate|]); discriminate|]). destruct H.
  - destruct o; cbn in L; lia.
  - apply airy_last. reflexivity.
  - rewrite !app_assoc. apply airy_last. reflexivity.
  - rewrite !app_assoc. apply airy_last. reflexivity.
  - rewrite !app_assoc. apply airy_last. reflexivity.
  - rewrite !app_assoc. apply airy_last. reflexivity.
  - rewrite !app_assoc. apply airy_last. reflexivity.
  - rewrite !app_assoc. apply airy_last. reflexivity.
  - rewrite !app_assoc. apply airy_end. exists (u "\right"), 124. split; reflexivity.
  - rewrite !app_assoc. apply (airy_command _ (u "rfloor")); reflexivity.
  - rewrite !app_assoc. apply (airy_command _ (u "rceil")); reflexivity.
  - rewrite !app_assoc. apply airy_last. reflexivity.
  - apply airy_parens.
Qed.
Lemma good_toks e : forall ld rest, wf e -> ld = [] \/ ld = [32] -> good rest -> follows (body e) rest -> good (toks e ld ++ rest).
Proof.
  assert (PA : forall e' ld rest, (forall ld rest, wf e' -> ld = [] \/ ld = [32] -> good rest -> follows (body e') rest -> good (toks e' ld ++ rest)) ->
     wf e' -> ld = [] \/ ld = [32] -> good rest -> follows (u ")") rest -> good (paren_toks ld (toks e' []) ++ rest)).
  { intros e' ld rest IH W Ld G Fo. unfold paren_toks. cbn [app]. rewrite <- app_assoc. cbn [app].
    apply good_opener; [mem|apply lead_starter; [apply named_starter; mem|exact Ld]|apply begins_app, toks_begin, W|].
    apply IH; [exact W|left; reflexivity| |apply follow; mem].
    apply good_ender; [apply named_ender; mem|apply no_lead|at_end Fo|exact G]. }
  assert (LV : forall l e' ld rest, (forall ld rest, wf e' -> ld = [] \/ ld = [32] -> good rest -> follows (body e') rest -> good (toks e' ld ++ rest)) ->
     wf e' -> ld = [] \/ ld = [32] -> good rest -> (follows (if Nat.leb l (prec e') then body e' else u ")") rest) -> good (at_level l e' ld ++ rest)).
  { intros l e' ld rest IH W Ld G Fo. unfold at_level. destruct (Nat.leb _ _); [apply IH; assumption|apply PA; assumption]. }
  assert (BR : forall e' rest, (forall ld rest, wf e' -> ld = [] \/ ld = [32] -> good rest -> follows (body e') rest -> good (toks e' ld ++ rest)) ->
     wf e' -> good (tok w_rbrace [] :: rest) -> good (tok w_lbrace [] :: toks e' [] ++ tok w_rbrace [] :: rest)).
  { intros e' rest IH W G. apply good_opener; [mem|apply no_lead|apply begins_app, toks_begin, W|].
    apply IH; [exact W|left; reflexivity|exact G|apply follow; mem]. }
  assert (RB : forall rest, good rest -> follows (u "}") rest -> good (tok w_rbrace [] :: rest)).
  { intros rest G Fo. apply good_ender; [apply named_ender; mem|apply no_lead|at_end Fo|exact G]. }
  induction e; intros ld rest W Ld G Fo; cbn [wf] in W.
  - apply good_digits_gen; [exact W|exact Ld|exact G|intros; eapply follows_digits; eassumption].
  - cbn [toks]. rewrite <- app_assoc. cbn [app]. destruct W as [W1 W2]. apply good_digits; [exact W1|exact Ld| |].
    + destruct (begins_app _ _ _ rest (begins_digits fs [] W2)) as (v & r & Er & Hv). apply good_cons.
      * apply words_ok. do 5 (apply in_or_app; right). apply in_or_app; left. mem.
      * apply no_lead.
      * rewrite Er. apply meets_word. pose proof t_period as T. rewrite Forall_forall in T. apply T, Hv.
      * apply good_digits_gen; [exact W2|left; reflexivity|exact G|intros; eapply follows_digits; eassumption].
    + right. eexists w_period, _. split; [reflexivity|]. unfold after_digits. do 2 (apply in_or_app; right). apply in_or_app; left. mem.
  - cbn [toks]. rewrite <- app_assoc. cbn [app]. apply good_digits; [exact W|exact Ld| |].
    + apply good_ender; [apply named_ender; mem|apply no_lead|at_end Fo|exact G].
    + right. eexists w_percent, _. split; [reflexivity|]. unfold after_digits. do 2 (apply in_or_app; right). apply in_or_app; left. mem.
  - cbn [toks app]. apply good_ender; [apply sym_ender, W|apply lead_starter; [apply sym_starter, W|exact Ld]|rewrite (w_sym_text x W); exact Fo|exact G].
  - cbn [toks app]. apply good_ender; [apply named_ender; mem|apply lead_starter; [apply named_starter; mem|exact Ld]|at_end Fo|exact G].
  - destruct W as [W1 W2]. change (toks (Bin o e1 e2) ld) with (at_level (op_prec o) e1 ld ++ tok (w_op o) [] :: at_level (S (op_prec o)) e2 (op_lead o)).
    rewrite <- app_assoc. cbn [app]. apply LV; [exact IHe1|exact W1|exact Ld| |apply follow, op_follower].
    assert (OL : op_lead o = [] \/ op_lead o = [32]) by (destruct o; cbn [op_lead]; (exact Hgap || (left; reflexivity))).
    assert (G2 : good (at_level (S (op_prec o)) e2 (op_lead o) ++ rest)) by (apply LV; [exact IHe2|exact W2|exact OL|exact G|apply follows_level; change (body (Bin o e1 e2)) with
      ((if Nat.leb (op_prec o) (prec e1) then body e1 else parens (body e1)) ++ op_latex o ++ (if Nat.leb (S (op_prec o)) (prec e2) then body e2 else parens (body e2))) in Fo;
      rewrite app_assoc in Fo; apply follows_end in Fo; [exact Fo|apply level_ne, W2]]).
    assert (B2 := begins_app _ _ _ rest (at_level_begins (S (op_prec o)) e2 (op_lead o) W2)).
    destruct o; first [apply good_opener; [mem|apply no_lead|exact B2|exact G2] | apply good_spacer; [mem|apply no_lead|exact B2|exact G2]].
  - change (toks (Neg e) ld) with (tok w_minus ld :: at_level 3%nat e []). cbn [app]. apply good_opener; [mem|apply lead_starter; [apply named_starter; mem|exact Ld]| |].
    + apply begins_app, at_level_begins, W.
    + apply LV; auto. apply follows_level. change (body (Neg e)) with (u "-" ++ (if Nat.leb 3 (prec e) then body e else parens (body e))) in Fo.
      apply follows_end in Fo; [exact Fo|apply level_ne, W].
  - destruct W as [W1 W2]. change (toks (Scale ds e) ld) with (digits ld ds ++ factor_toks e). rewrite <- app_assoc. apply good_digits; [exact W1|exact Ld| |].
    + change (body (Scale ds e)) with (ds ++ (if digit_first (if Nat.leb 4 (prec e) then body e else parens (body e)) then parens (body e)
        else (if Nat.leb 4 (prec e) then body e else parens (body e)))) in Fo.
      assert (Eb : src (at_level 4 e []) = if Nat.leb 4 (prec e) then body e else parens (body e)).
      { unfold at_level. destruct (Nat.leb _ _); [apply (src_toks e [] W2)|]. rewrite src_paren, (src_toks e [] W2). reflexivity. }
      rewrite <- Eb in Fo. rewrite (begins_digit _ (at_level_begins 4 e [] W2)) in Fo.
      unfold factor_toks. destruct (first_is _ _); [apply PA|apply LV]; auto.
      * apply follows_end in Fo; [|discriminate]. unfold parens in Fo. at_end Fo.
      * apply follows_level. apply follows_end in Fo; [exact Fo|apply level_ne, W2].
    + right. assert (B : begins (factor_toks e) [] other_starters).
      { unfold factor_toks. destruct (first_is K_DIGIT (at_level 4%nat e [])) eqn:E.
        - apply first_is_begins; [apply begins_paren|reflexivity].
        - apply first_is_begins; [apply at_level_begins, W2|exact E]. }
      apply (begins_more _ _ _ _ (begins_app _ _ _ rest B)). intros w H. unfold after_digits. do 3 (apply in_or_app; right). apply in_or_app; left. exact H.
  - change (toks (Fact e) ld) with (at_level 4%nat e ld ++ [tok w_bang []]). rewrite <- app_assoc. cbn [app]. apply LV; [exact IHe|exact W|exact Ld| |apply follow; mem].
    apply good_ender; [apply named_ender; mem|apply no_lead|at_end Fo|exact G].
  - destruct W as [W1 W2]. change (toks (Pow e1 e2) ld) with (at_level 6%nat e1 ld ++ tok w_caret [] :: tok w_lbrace [] :: toks e2 [] ++ [tok w_rbrace []]).
    rewrite <- app_assoc. cbn [app]. rewrite <- app_assoc. cbn [app]. apply LV; [exact IHe1|exact W1|exact Ld| |apply follow; mem].
    apply good_caret; [apply begins_app, toks_begin, W2|]. apply BR; [exact IHe2|exact W2|apply RB; [exact G|at_end Fo]].
  - cbn [toks app]. rewrite <- app_assoc. cbn [app]. apply good_couple; [mem|apply lead_starter; [apply named_starter; mem|exact Ld]|].
    apply good_caret; [apply begins_app, toks_begin, W|]. apply BR; [exact IHe|exact W|apply RB; [exact G|at_end Fo]].
  - destruct W as [W1 W2]. cbn [toks app]. rewrite <- app_assoc. cbn [app]. rewrite <- app_assoc. cbn [app].
    apply good_couple; [mem|apply lead_starter; [apply named_starter; mem|exact Ld]|]. apply BR; [exact IHe1|exact W1|].
    apply good_couple; [mem|apply no_lead|]. apply BR; [exact IHe2|exact W2|apply RB; [exact G|at_end Fo]].
  - destruct W as [W1 W2]. cbn [toks app]. rewrite <- app_assoc. cbn [app]. rewrite <- app_assoc. cbn [app].
    apply good_couple; [mem|apply lead_starter; [apply named_starter; mem|exact Ld]|]. apply BR; [exact IHe1|exact W1|].
    apply good_couple; [mem|apply no_lead|]. apply BR; [exact IHe2|exact W2|apply RB; [exact G|at_end Fo]].
  - cbn [toks app]. rewrite <- app_assoc. cbn [app].
    apply good_couple; [mem|apply lead_starter; [apply named_starter; mem|exact Ld]|]. apply BR; [exact IHe|exact W|apply RB; [exact G|at_end Fo]].
  - destruct W as [W1 W2]. cbn [toks app]. rewrite <- app_assoc. cbn [app]. rewrite <- app_assoc. cbn [app].
    apply good_couple; [mem|apply lead_starter; [apply named_starter; mem|exact Ld]|].
    apply good_opener; [mem|apply no_lead|apply begins_app, toks_begin, W1|]. apply IHe1; [exact W1|left; reflexivity| |apply follow; mem].
    apply good_couple; [mem|apply no_lead|]. apply BR; [exact IHe2|exact W2|apply RB; [exact G|at_end Fo]].
  - cbn [toks app]. rewrite <- app_assoc. cbn [app].
    apply good_couple; [mem|apply lead_starter; [apply named_starter; mem|exact Ld]|].
    apply good_opener; [mem|apply no_lead|apply begins_app, toks_begin, W|]. apply IHe; [exact W|left; reflexivity| |apply follow; mem].
    apply good_couple; [mem|apply no_lead|]. apply good_ender; [apply named_ender; mem|apply no_lead|at_end Fo|exact G].
  - cbn [toks app]. rewrite <- app_assoc. cbn [app].
    apply good_spacer; [mem|apply lead_starter; [apply named_starter; mem|exact Ld]|apply begins_app, toks_begin, W|].
    apply IHe; [exact W|exact Hgap| |apply follow; mem]. apply good_ender; [apply named_ender; mem|apply no_lead|at_end Fo|exact G].
  - cbn [toks app]. rewrite <- app_assoc. cbn [app].
    apply good_spacer; [mem|apply lead_starter; [apply named_starter; mem|exact Ld]|apply begins_app, toks_begin, W|].
    apply IHe; [exact W|exact Hgap| |apply follow; mem]. apply good_ender; [apply named_ender; mem|apply no_lead|at_end Fo|exact G].
  - destruct W as [Wf W]. cbn [toks app]. rewrite <- app_assoc. cbn [app].
    apply good_couple; [apply fn_couple, Wf|apply lead_starter; [apply fn_starter, Wf|exact Ld]|].
    apply good_opener; [mem|apply no_lead|apply begins_app, toks_begin, W|]. apply IHe; [exact W|left; reflexivity| |apply follow; mem].
    apply good_ender; [apply named_ender; mem|apply no_lead|at_end Fo|exact G].
  - change (toks (Group e) ld) with (paren_toks ld (toks e [])). apply PA; [exact IHe|exact W|exact Ld|exact G|]. change (body (Group e)) with (parens (body e)) in Fo. unfold parens in Fo. at_end Fo.
  - destruct W as [W1 W2]. change (toks (Juxt e1 e2) ld) with (left_toks e1 e2 ld ++ right_toks e2). rewrite <- app_assoc.
    assert (Fr : follows (if digit_first (if Nat.leb 3 (prec e2) then body e2 else parens (body e2)) then parens (body e2) else (if Nat.leb 3 (prec e2) then body e2 else parens (body e2))) rest).
    { revert Fo. change (body (Juxt e1 e2)) with
      (let right := if digit_first (if Nat.leb 3 (prec e2) then body e2 else parens (body e2)) then parens (body e2) else (if Nat.leb 3 (prec e2) then body e2 else parens (body e2)) in
       (if is_greek e1 || ends_name e1 && open_first right || risky (body e1) right then parens (body e1) else if Nat.leb 4 (prec e1) then body e1 else parens (body e1)) ++ gap ++ right). cbv zeta.
      rewrite app_assoc. apply follows_end. destruct (digit_first _); [discriminate|apply level_ne, W2]. }
    assert (B2 : begins (right_toks e2 ++ rest) gap other_starters).
    { apply begins_app. unfold right_toks. destruct (first_is K_DIGIT (at_level 3 e2 gap)) eqn:Ef; [exists w_lparen, (toks e2 [] ++ [tok w_rparen []]); split; [reflexivity|do 2 (apply in_or_app; right); mem]|].
      destruct (at_level_begins 3 e2 gap W2) as (w & r & E & H). rewrite E in *. exists w, r. split; [reflexivity|]. apply in_app_or in H. destruct H as [H|H]; [|exact H].
      exfalso. unfold digit_words in H. apply in_map_iff in H. destruct H as (c & <- & _). discriminate Ef. }
    assert (Sr : src (right_toks e2 ++ rest) = gap ++ right_text gap e2 ++ src rest).
    { rewrite src_app, app_assoc. f_equal. assert (Eb : forall ld, src (at_level 3 e2 ld) = ld ++ text_level gap 3 e2).
      { intro ld0. unfold at_level, text_level. destruct (Nat.leb _ _); [apply (src_toks e2 ld0 W2)|]. rewrite src_paren, (src_toks e2 [] W2). reflexivity. }
      unfold right_toks, right_text. rewrite (first_level _ 3 e2 gap [] W2), <- (begins_digit _ (at_level_begins 3 e2 [] W2)), (Eb []). cbn [app].
      destruct (digit_first _); [rewrite src_paren, (src_toks e2 [] W2); reflexivity|apply Eb]. }
    assert (Rn : exists x y, right_text gap e2 = x :: y).
    { unfold right_text. destruct (digit_first _); [eexists _, _; reflexivity|]. pose proof (level_ne 3 e2 W2) as X. unfold text_level. destruct (if Nat.leb 3 (prec e2) then body e2 else parens (body e2)); [congruence|eauto]. }
    assert (G2 : good (right_toks e2 ++ rest)).
    { unfold right_toks. rewrite (first_level _ 3 e2 gap [] W2).
      assert (Eb : src (at_level 3 e2 []) = if Nat.leb 3 (prec e2) then body e2 else parens (body e2)).
      { unfold at_level. destruct (Nat.leb _ _); [apply (src_toks e2 [] W2)|]. rewrite src_paren, (src_toks e2 [] W2). reflexivity. }
      rewrite <- Eb in Fr. rewrite (begins_digit _ (at_level_begins 3 e2 [] W2)) in Fr. destruct (first_is _ _).
      - apply PA; auto. unfold parens in Fr. at_end Fr.
      - rewrite Eb in Fr. apply LV; auto. apply follows_level, Fr. }
    assert (Rp : follows (u ")") (right_toks e2 ++ rest)) by (apply (follow_gap _ _ _ B2 Sr); [apply airy_char|reflexivity]).
    unfold left_toks. destruct (clash e1 e2) eqn:Cl; [apply PA; auto|apply LV; auto].
    apply Bool.orb_false_iff in Cl. destruct Cl as [Cl Ri]. apply Bool.orb_false_iff in Cl. destruct (Nat.leb_spec 4 (prec e1)); [|exact Rp].
    apply (follow_gap _ _ _ B2 Sr); [apply airy_body; tauto|]. destruct Rn as (x & y & En). rewrite En in *. exact Ri.
Qed.
Theorem lex_latex e : wf e -> lex (body e) = Some (toks e []).
Proof.
  intro W. unfold lex. rewrite <- (src_toks e [] W : src (toks e []) = body e). apply lex_go_good; [|lia].
  rewrite <- (app_nil_r (toks e [])). apply good_toks; [exact W|left; reflexivity|exact I|left; reflexivity].
Qed.
End Writing.
