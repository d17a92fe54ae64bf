(** Every rule of the grammar consumes a piece of the input in which curly braces balance. *)
From Coq Require Import String List NArith Bool Lia.
From Verif Require Import PyStr Regex Normalize Monad L2S Lexer Grammar.
Import ListNotations.
Local Open Scope N_scope.
Local Open Scope par_scope.

(** Brace depth; [None] when a brace is closed that was not opened *)
Fixpoint depth (d : nat) (l : list token) : option nat :=
  match l with
  | [] => Some d
  | t :: l' => if kind t =? K_L_BRACE then depth (S d) l'
               else if kind t =? K_R_BRACE then match d with O => None | S d' => depth d' l' end
               else depth d l'
  end.
(** From depth i to depth j *)
Definition shift (i j : nat) (c : list token) : Prop := forall d, depth (i + d) c = Some (j + d)%nat.
Definition balanced (c : list token) : Prop := shift 0 0 c.
Definition taking (i j : nat) (c : list token) : Prop := shift i j c /\ c <> [].

Lemma depth_app l l' d : depth d (l ++ l') = match depth d l with Some e => depth e l' | None => None end.
Proof.
  revert d. induction l as [|t l IH]; intro d; [reflexivity|]. cbn [app depth].
  destruct (kind t =? K_L_BRACE); [apply IH|]. destruct (kind t =? K_R_BRACE); [|apply IH]. destruct d; [reflexivity|apply IH].
Qed.
Lemma shift_app i j l c c' : shift i j c -> shift j l c' -> shift i l (c ++ c').
Proof. intros H H' d. rewrite depth_app, H. apply H'. Qed.
Lemma shift_nil i : shift i i [].
Proof. intro d. reflexivity. Qed.
(** A balanced piece before a closing brace is determined *)
Lemma balanced_prefix c t r c' t' r' : c ++ t :: r = c' ++ t' :: r' -> balanced c -> balanced c' ->
  kind t = K_R_BRACE -> kind t' = K_R_BRACE -> c = c' /\ r = r' /\ t = t'.
Proof.
  intros E B B' Kt Kt'.
  assert (G : forall a b x, a ++ t :: r = (a ++ t :: b) ++ x -> balanced a -> balanced (a ++ t :: b) -> False).
  { intros a b x _ Ba Bb. specialize (Bb 0%nat). rewrite depth_app, (Ba 0%nat) in Bb. cbn [depth plus] in Bb. rewrite Kt in Bb. discriminate. }
  assert (G' : forall a b, balanced a -> balanced (a ++ t' :: b) -> False).
  { intros a b Ba Bb. specialize (Bb 0%nat). rewrite depth_app, (Ba 0%nat) in Bb. cbn [depth plus] in Bb. rewrite Kt' in Bb. discriminate. }
  revert c' E B'. assert (H : forall c0 c', c0 ++ t :: r = c' ++ t' :: r' -> (c0 = c' /\ r = r' /\ t = t') \/ (exists b, c' = c0 ++ t :: b) \/ (exists b, c0 = c' ++ t' :: b)).
  { induction c0 as [|x c0 IH]; intros [|y c'] E; cbn in E; injection E as -> E.
    - subst. left; auto.
    - right; left. exists c'. reflexivity.
    - right; right. exists c0. reflexivity.
    - destruct (IH c' E) as [(-> & -> & ->)|[(b & ->)|(b & ->)]]; [left; auto|right; left; exists b; reflexivity|right; right; exists b; reflexivity]. }
  intros c' E B'. destruct (H c c' E) as [R|[(b & ->)|(b & ->)]]; [exact R| |].
  - exfalso. specialize (B' 0%nat). rewrite depth_app, (B 0%nat) in B'. cbn [depth plus] in B'. rewrite Kt in B'. discriminate.
  - exfalso. apply (G' c' b B' B).
Qed.

(** Tokens that can make the model give up *)
Definition odd_kind (t : token) : Prop := kind t = K_UNDERSCORE \/ kind t = K_MATRIX_XRIGHTARROW.
Definition odd (ts : list token) : Prop := Exists odd_kind ts.

(** On inputs of at most m tokens, the answer of the parser is that of its continuation after a piece with [Q],
    unless the model gives up *)
Definition sound {A} (m : nat) (p : P A) (Q : list token -> Prop) : Prop :=
  forall ts k, (List.length ts <= m)%nat -> p ts k <> NoParse ->
  (exists a c r, ts = c ++ r /\ Q c /\ k a r = p ts k) \/ (p ts k = Unknown /\ odd ts).
Definition below {A} (m : nat) (p : P A) (Q : list token -> Prop) : Prop := forall m', (m' < m)%nat -> sound m' p Q.

Lemma odd_app c r : odd r -> odd (c ++ r).
Proof. intro H. apply Exists_app. right; exact H. Qed.
Lemma sound_weaken {A} m (p : P A) (Q Q' : list token -> Prop) : (forall c, Q c -> Q' c) -> sound m p Q -> sound m p Q'.
Proof. intros HQ H ts k L N. destruct (H ts k L N) as [(a & c & r & E & Hc & Ek)|U]; [left; exists a, c, r; auto|right; exact U]. Qed.
Lemma s_loose {A} m (p : P A) i j : sound m p (taking i j) -> sound m p (shift i j).
Proof. apply sound_weaken. intros c [H _]. exact H. Qed.
Lemma s_below {A} m (p : P A) Q : (forall m', (m' < m)%nat -> sound m' p Q) -> below m p Q.
Proof. auto. Qed.
Lemma s_mono {A} m m' (p : P A) Q : (m' <= m)%nat -> sound m p Q -> sound m' p Q.
Proof. intros L H ts k L' N. apply (H ts k); [lia|exact N]. Qed.
Lemma sound_below {A} m (p : P A) Q : sound m p Q -> below m p Q.
Proof. intros H m' L. apply (s_mono m); [lia|exact H]. Qed.
Lemma below_le {A} m m' (p : P A) Q : (m' <= m)%nat -> below m p Q -> below m' p Q.
Proof. intros L H m'' L'. apply H. lia. Qed.
Lemma s_ret {A} m (a : A) i : sound m (pret a) (shift i i).
Proof. intros ts k L N. left. exists a, [], ts. split; [reflexivity|]. split; [apply shift_nil|reflexivity]. Qed.
Lemma s_fail {A} m Q : sound m (@pfail A) Q.
Proof. intros ts k L N. contradiction. Qed.
Lemma s_one m ks i j : (forall k, mem k ks = true -> forall d, depth (i + d) [Tok k [] []] = Some (j + d)%nat) -> sound m (pone ks) (taking i j).
Proof.
  intros H [|t ts] k L N; [contradiction N; reflexivity|]. unfold pone in *. destruct (mem (kind t) ks) eqn:E; [|contradiction N; reflexivity].
  left. exists t, [t], ts. split; [reflexivity|]. split; [|reflexivity]. split; [|discriminate]. intro d. specialize (H _ E d). cbn [depth kind] in *. exact H.
Qed.
(** Sequence: the second part runs after the first *)
Lemma s_bind {A B} m (p : P A) (f : A -> P B) i j l :
  sound m p (shift i j) -> (forall a, sound m (f a) (shift j l)) -> sound m (pbind p f) (shift i l).
Proof.
  intros Hp Hf ts k L N. unfold pbind in *. destruct (Hp ts _ L N) as [(a & c & r & -> & Hc & Ek)|U]; [|right; exact U].
  rewrite <- Ek in *. rewrite app_length in L. destruct (Hf a r k ltac:(lia) N) as [(b & c' & r' & -> & Hc' & Ek')|[U NO]].
  - left. exists b, (c ++ c'), r'. rewrite <- app_assoc. split; [reflexivity|]. split; [apply (shift_app i j l); assumption|exact Ek'].
  - right. split; [exact U|]. apply odd_app, NO.
Qed.
(** … and on a shorter input if the first takes a token *)
Lemma s_step {A B} m (p : P A) (f : A -> P B) i j l :
  sound m p (taking i j) -> (forall a, below m (f a) (shift j l)) -> sound m (pbind p f) (taking i l).
Proof.
  intros Hp Hf ts k L N. unfold pbind in *. destruct (Hp ts _ L N) as [(a & c & r & -> & [Hc Nc] & Ek)|U]; [|right; exact U].
  rewrite <- Ek in *. rewrite app_length in L. assert (0 < List.length c)%nat by (destruct c; [contradiction|cbn; lia]).
  destruct (Hf a (List.length r) ltac:(lia) r k ltac:(lia) N) as [(b & c' & r' & -> & Hc' & Ek')|[U NO]].
  - left. exists b, (c ++ c'), r'. rewrite <- app_assoc. split; [reflexivity|]. split; [|exact Ek'].
    split; [apply (shift_app i j l); assumption|]. destruct c; [contradiction|discriminate].
  - right. split; [exact U|]. apply odd_app, NO.
Qed.
Lemma s_then {A B} m (p : P A) (f : A -> P B) i j l :
  sound m p (shift i j) -> (forall a, sound m (f a) (taking j l)) -> sound m (pbind p f) (taking i l).
Proof.
  intros Hp Hf ts k L N. unfold pbind in *. destruct (Hp ts _ L N) as [(a & c & r & -> & Hc & Ek)|U]; [|right; exact U].
  rewrite <- Ek in *. rewrite app_length in L. destruct (Hf a r k ltac:(lia) N) as [(b & c' & r' & -> & [Hc' Nc] & Ek')|[U NO]].
  - left. exists b, (c ++ c'), r'. rewrite <- app_assoc. split; [reflexivity|]. split; [|exact Ek']. split; [apply (shift_app i j l); assumption|].
    intro E. apply app_eq_nil in E. tauto.
  - right. split; [exact U|]. apply odd_app, NO.
Qed.
Lemma s_alt {A} m (p q : P A) Q : sound m p Q -> sound m q Q -> sound m (p <|> q) Q.
Proof.
  intros Hp Hq ts k L N. unfold palt in *. specialize (Hp ts k L). destruct (p ts k); [exact (Hp N)|apply (Hq ts k L N)|exact (Hp N)].
Qed.
Lemma s_map {A B} m (f : A -> B) (p : P A) Q : sound m p Q -> sound m (pmap f p) Q.
Proof.
  intros H ts k L N. unfold pmap, pbind, pret in *. destruct (H ts _ L N) as [(a & c & r & E & Hc & Ek)|U]; [|right; exact U].
  left. exists (f a), c, r. auto.
Qed.
Lemma s_opt {A} m (p : P A) i : sound m p (taking i i) -> sound m (popt p) (shift i i).
Proof. intro H. apply s_alt; [apply s_map, s_loose, H|apply s_ret]. Qed.
Lemma s_span {A} m (p : P A) Q : sound m p Q -> sound m (pspan p) Q.
Proof.
  intros H ts k L N. unfold pspan in *. destruct (H ts _ L N) as [(a & c & r & E & Hc & Ek)|U]; [|right; exact U].
  left. eexists (a, _), c, r. split; [exact E|]. split; [exact Hc|exact Ek].
Qed.
Lemma s_text {A} m (p : P A) Q : sound m p Q -> sound m (ptext p) Q.
Proof. intro H. apply s_map, s_span, H. Qed.
Lemma s_many_n {A} m n (p : P A) : sound m p (taking 0 0) -> sound m (pmany_n n p) (shift 0 0).
Proof.
  revert m. induction n as [|n IH]; intros m H; [apply s_ret|]. cbn [pmany_n]. apply s_alt; [|apply s_ret].
  apply (s_bind m _ _ 0 0 0); [apply s_loose, H|]. intro a. apply (s_bind m _ _ 0 0 0); [apply IH, H|]. intro l. apply s_ret.
Qed.
Lemma s_many {A} m (p : P A) : sound m p (taking 0 0) -> sound m (pmany p) (shift 0 0).
Proof. intros H ts k L N. apply (s_many_n m _ p H ts k L N). Qed.
Lemma s_plus {A} m (p : P A) : sound m p (taking 0 0) -> sound m (pplus p) (taking 0 0).
Proof.
  intro H. apply (s_step m _ _ 0 0 0); [exact H|]. intro a. apply sound_below. apply (s_bind m _ _ 0 0 0); [apply s_many, H|]. intro l. apply s_ret.
Qed.
Lemma s_alts {A} m (l : list (P A)) Q : Forall (fun p => sound m p Q) l -> sound m (palts l) Q.
Proof.
  induction 1 as [|p l Hp Hl IH]; [apply s_fail|]. cbn [palts]. destruct l; [exact Hp|]. apply s_alt; [exact Hp|exact IH].
Qed.
(** Kinds that are not braces *)
Definition plain (k : N) : Prop := k <> K_L_BRACE /\ k <> K_R_BRACE.
Lemma s_plain m ks i : forallb (fun k => negb (k =? K_L_BRACE) && negb (k =? K_R_BRACE)) ks = true -> sound m (pone ks) (taking i i).
Proof.
  intro H. apply s_one. intros k Hk d. cbn [depth kind]. unfold mem in Hk. apply existsb_exists in Hk. destruct Hk as (k' & I & E).
  apply N.eqb_eq in E. subst k'. rewrite forallb_forall in H. specialize (H _ I). apply andb_true_iff in H. destruct H as [H1 H2].
  apply negb_true_iff in H1, H2. rewrite H1, H2. reflexivity.
Qed.
Lemma s_open m i : sound m (ptok K_L_BRACE) (taking i (S i)).
Proof. apply s_one. intros k Hk d. cbn in Hk. rewrite orb_false_r in Hk. apply N.eqb_eq in Hk. subst k. reflexivity. Qed.
Lemma s_close m i : sound m (ptok K_R_BRACE) (taking (S i) i).
Proof. apply s_one. intros k Hk d. cbn in Hk. rewrite orb_false_r in Hk. apply N.eqb_eq in Hk. subst k. reflexivity. Qed.
Lemma shift_up i c : shift 0 0 c -> shift i i c.
Proof. intros H d. exact (H (i + d)%nat). Qed.

Lemma s_up {A} m (p : P A) i : sound m p (taking 0 0) -> sound m p (taking i i).
Proof. apply sound_weaken. intros c [H N]. split; [apply shift_up, H|exact N]. Qed.
Lemma s_up' {A} m (p : P A) i : sound m p (shift 0 0) -> sound m p (shift i i).
Proof. apply sound_weaken. intros c H. apply shift_up, H. Qed.

(** Where the model may give up: only after an odd token *)
Definition soundw {A} (m : nat) (p : P A) (Q : list token -> Prop) : Prop :=
  forall ts k, (List.length ts <= m)%nat -> p ts k <> NoParse ->
  (exists a c r, ts = c ++ r /\ Q c /\ k a r = p ts k) \/ p ts k = Unknown.
Lemma sound_w {A} m (p : P A) Q : sound m p Q -> soundw m p Q.
Proof. intros H ts k L N. destruct (H ts k L N) as [E|[U _]]; [left; exact E|right; exact U]. Qed.
Lemma s_bindw {A B} m (p : P A) (f : A -> P B) i j l :
  soundw m p (shift i j) -> (forall a, soundw m (f a) (shift j l)) -> soundw m (pbind p f) (shift i l).
Proof.
  intros Hp Hf ts k L N. unfold pbind in *. destruct (Hp ts _ L N) as [(a & c & r & -> & Hc & Ek)|U]; [|right; exact U].
  rewrite <- Ek in *. rewrite app_length in L. destruct (Hf a r k ltac:(lia) N) as [(b & c' & r' & -> & Hc' & Ek')|U].
  - left. exists b, (c ++ c'), r'. rewrite <- app_assoc. split; [reflexivity|]. split; [apply (shift_app i j l); assumption|exact Ek'].
  - right. exact U.
Qed.
Lemma s_odd {A B} m (p : P A) (f : A -> P B) i j l :
  sound m p (taking i j) -> (forall ts k, p ts k <> NoParse -> odd ts) -> (forall a, soundw m (f a) (shift j l)) ->
  sound m (pbind p f) (taking i l).
Proof.
  intros Hp Ho Hf ts k L N. unfold pbind in *. pose proof (Ho _ _ N) as O.
  destruct (Hp ts _ L N) as [(a & c & r & -> & [Hc Nc] & Ek)|U]; [|right; exact U].
  rewrite <- Ek in *. rewrite app_length in L. destruct (Hf a r k ltac:(lia) N) as [(b & c' & r' & -> & Hc' & Ek')|U].
  - left. exists b, (c ++ c'), r'. rewrite <- app_assoc. split; [reflexivity|]. split; [|exact Ek'].
    split; [apply (shift_app i j l); assumption|]. destruct c; [contradiction|discriminate].
  - right. split; [exact U|exact O].
Qed.
Lemma ptok_odd ks : (forall k, mem k ks = true -> k = K_UNDERSCORE \/ k = K_MATRIX_XRIGHTARROW) ->
  forall ts k, pone ks ts k <> NoParse -> odd ts.
Proof.
  intros H [|t ts] k N; [contradiction N; reflexivity|]. unfold pone in N. destruct (mem (kind t) ks) eqn:E; [|contradiction N; reflexivity].
  apply Exists_cons_hd. apply (H _ E).
Qed.
Lemma s_punk {A} m Q : soundw m (@punk A) Q.
Proof. intros ts k L N. right. reflexivity. Qed.

Section Rules.
Variable rec : rules_at.
(** The recursive calls, on shorter inputs *)
Definition calls (m : nat) : Prop :=
  below m (r_expr rec) (taking 0 0) /\ below m (r_mp rec) (taking 0 0) /\ below m (r_mp_nofunc rec) (taking 0 0)
  /\ below m (r_atom rec) (taking 0 0).
Lemma calls_le m m' : (m' <= m)%nat -> calls m -> calls m'.
Proof. intros L (A & B & C & D). repeat split; apply (below_le m); assumption. Qed.

Create HintDb rules discriminated.
Local Hint Constants Opaque : rules.
Ltac leaf := first
  [ lazymatch goal with |- sound _ pfail _ => apply s_fail end
  | lazymatch goal with |- sound _ (pret _) _ => apply s_ret end
  | lazymatch goal with
    | |- sound _ (r_expr rec) _ => idtac | |- sound _ (r_mp rec) _ => idtac
    | |- sound _ (r_mp_nofunc rec) _ => idtac | |- sound _ (r_atom rec) _ => idtac
    end; match goal with H : calls _ |- _ => first [apply s_up | apply s_loose, s_up]; apply H; lia end
  | first [apply s_up | apply s_loose, s_up | apply s_up'];
    match goal with H : calls ?m |- sound ?m' _ _ => assert (calls m') by (apply (calls_le m); [lia|exact H]) end;
    solve [auto with rules nocore] ].
Ltac snd := idtac;
  lazymatch goal with
  | |- below _ _ _ => let m' := fresh "m'" in let L := fresh "L" in intros m' L; snd
  | |- sound _ (_ <|> _) _ => apply s_alt; snd
  | |- sound _ (pmap _ _) _ => apply s_map; snd
  | |- sound _ (ptext _) _ => apply s_text; snd
  | |- sound _ (pspan _) _ => apply s_span; snd
  | |- sound _ (popt _) (shift _ _) => apply s_opt; snd
  | |- sound _ (pmany _) (shift _ _) => apply s_up', s_many; snd
  | |- sound _ (pplus _) (taking _ _) => apply s_up, s_plus; snd
  | |- sound _ (pplus _) (shift _ _) => apply s_loose, s_up, s_plus; snd
  | |- sound _ (ptok K_L_BRACE) (taking _ _) => apply s_open
  | |- sound _ (ptok K_R_BRACE) (taking _ _) => apply s_close
  | |- sound _ (ptok K_R_BRACE) (shift _ _) => apply s_loose, s_close
  | |- sound _ (ptok ?k) (taking _ _) => apply s_plain; reflexivity
  | |- sound _ (pone _) (taking _ _) => apply s_plain; reflexivity
  | |- sound _ (ptok ?k) (shift _ _) => apply s_loose, s_plain; reflexivity
  | |- sound _ (pone _) (shift _ _) => apply s_loose, s_plain; reflexivity
  | |- sound _ (pbind (ptok K_L_BRACE) _) (taking ?i ?l) => apply (s_step _ _ _ i (S i) l); [apply s_open|intro; snd]
  | |- sound _ (pbind (ptok K_R_BRACE) _) (taking (S ?i) ?l) => apply (s_step _ _ _ (S i) i l); [apply s_close|intro; snd]
  | |- sound _ (pbind (ptok K_R_BRACE) _) (shift (S ?i) ?l) => apply s_loose, (s_step _ _ _ (S i) i l); [apply s_close|intro; snd]
  | |- sound _ (pbind (ptok K_L_BRACE) _) (shift ?i ?l) => apply s_loose, (s_step _ _ _ i (S i) l); [apply s_open|intro; snd]
  | |- sound _ (pbind _ _) (taking ?i ?l) =>
      first [ apply (s_step _ _ _ i i l); [solve [snd]|intro; snd] | apply (s_then _ _ _ i i l); [solve [snd]|intro; snd] ]
  | |- sound _ (pbind _ _) (shift ?i ?l) =>
      first [ apply s_loose, (s_step _ _ _ i i l); [solve [snd]|intro; snd] | apply (s_bind _ _ _ i i l); [solve [snd]|intro; snd] ]
  | _ => leaf
  end.
Lemma s_number_toks m : sound m p_number_toks (taking 0 0).
Proof. unfold p_number_toks, pdigit. snd. Qed.
Local Hint Resolve s_number_toks : rules.
Lemma s_number m : sound m p_number (taking 0 0).
Proof. apply s_map, s_text, s_number_toks. Qed.
Lemma s_e_notation m : sound m p_e_notation (taking 0 0).
Proof. unfold p_e_notation, pdigit. apply s_map, s_text, (s_step _ _ _ 0 0 0); [apply s_number_toks|intro; snd]. Qed.
Lemma s_percent m : sound m p_percent (taking 0 0).
Proof. unfold p_percent. apply s_map, s_text, (s_step _ _ _ 0 0 0); [apply s_number_toks|intro; snd]. Qed.
Local Hint Resolve s_number s_e_notation s_percent : rules.

Section At.
Variable m : nat.
Hypothesis H : calls m.
Lemma s_commas : sound m (_ <~ ptok K_COMMA ;; commas rec) (taking 0 0).
Proof. unfold commas. snd. Qed.
Lemma s_subexpr : sound m (subexpr rec) (taking 0 0).
Proof. unfold subexpr, commas. snd. Qed.
Lemma s_supexpr : sound m (supexpr rec) (taking 0 0).
Proof. unfold supexpr. snd. Qed.
Lemma s_name_part : sound m (name_part rec) (taking 0 0).
Proof. unfold name_part, accent. snd. Qed.
End At.
Local Hint Resolve s_subexpr s_supexpr s_name_part : rules.
Section At2.
Variable m : nat.
Hypothesis H : calls m.
Lemma s_atom_expr : sound m (atom_expr rec) (taking 0 0).
Proof. unfold atom_expr. snd. Qed.
Lemma s_frac : sound m (frac rec) (taking 0 0).
Proof. unfold frac, pdigit. snd. Qed.
Lemma s_mathit : sound m mathit (taking 0 0).
Proof. unfold mathit. snd. Qed.
Lemma s_binom : sound m (binom rec) (taking 0 0).
Proof. unfold binom. snd. Qed.
Lemma s_det : sound m (det rec) (taking 0 0).
Proof. unfold det, rows, row. snd. Qed.
Lemma s_matrix : sound m (matrix rec) (taking 0 0).
Proof.
  unfold matrix. apply (s_step _ _ _ 0 0 0); [snd|]. intros _ m' L'. apply (s_bind _ _ _ 0 0 0); [unfold rows, row; snd|].
  intro l. apply s_loose, (s_step _ _ _ 0 0 0); [snd|]. intros _ m'' L''. apply s_alt; [|apply s_ret].
  apply s_loose, (s_odd _ _ _ 0 0 0); [snd| |intro; apply s_punk].
  apply ptok_odd. intros k Hk. cbn in Hk. rewrite orb_false_r in Hk. right. apply N.eqb_eq, Hk.
Qed.
Lemma s_func_name fs ns : forallb (fun k => negb (k =? K_L_BRACE) && negb (k =? K_R_BRACE)) fs = true ->
  forallb (fun k => negb (k =? K_L_BRACE) && negb (k =? K_R_BRACE)) ns = true -> sound m (func_name fs ns) (taking 0 0).
Proof.
  intros Hf Hn. unfold func_name. apply s_alt; [apply s_map, s_plain, Hf|]. apply (s_step _ _ _ 0 0 0); [snd|]. intros c.
  apply sound_below. apply s_loose, (s_step _ _ _ 0 0 0); [|intro; snd].
  apply (s_step _ _ _ 0 1 0); [snd|]. intros _ m' L'. apply s_loose, (s_step _ _ _ 1 1 0); [apply s_plain, Hn|intro; snd].
Qed.
Lemma s_in_parens {A} (p : P A) : below m p (shift 0 0) -> sound m (in_parens p) (taking 0 0).
Proof.
  intro Hp. unfold in_parens. apply s_alt.
  all: apply (s_then _ _ _ 0 0 0); [snd|]; intros _; apply (s_step _ _ _ 0 0 0); [snd|]; intros _ m' L';
    apply (s_bind _ _ _ 0 0 0); [apply Hp, L'|]; intro x; snd.
Qed.
Lemma subexpr_odd ts k : subexpr rec ts k <> NoParse -> odd ts.
Proof.
  unfold subexpr. unfold pbind at 1. apply ptok_odd. intros k' Hk. cbn in Hk. rewrite orb_false_r in Hk. left. apply N.eqb_eq, Hk.
Qed.
Lemma sw_sub_tree s : soundw m (sub_tree s) (shift 0 0).
Proof. destruct s as [[s [t|]]|]; [apply sound_w, s_ret|apply s_punk|apply sound_w, s_ret]. Qed.
End At2.
Local Hint Resolve s_atom_expr s_frac s_mathit s_binom s_det s_matrix : rules.
Lemma s_scripts_tree m : calls m ->
  sound m (sp <~ scripts rec ;; s <~ sub_tree (fst sp) ;; pret (s, snd sp)) (shift 0 0).
Proof.
  intro H. unfold scripts.
  change (sound m (((s <~ subexpr rec ;; p <~ popt (supexpr rec) ;; t <~ sub_tree (Some s) ;; pret (t, p))
          <|> (p <~ popt (supexpr rec) ;; pret (None, p)))
          <|> (p <~ popt (supexpr rec) ;; ((s <~ subexpr rec ;; t <~ sub_tree (Some s) ;; pret (t, p)) <|> pret (None, p)))) (shift 0 0)).
  apply s_alt; [apply s_alt|].
  - apply s_loose, (s_odd _ _ _ 0 0 0); [snd|apply subexpr_odd|]. intro s. apply (s_bindw _ _ _ 0 0 0); [apply sound_w; snd|]. intro p.
    apply (s_bindw _ _ _ 0 0 0); [apply sw_sub_tree|]. intro t. apply sound_w, s_ret.
  - snd.
  - apply (s_bind _ _ _ 0 0 0); [snd|]. intro p. apply s_alt; [|apply s_ret].
    apply s_loose, (s_odd _ _ _ 0 0 0); [snd|apply subexpr_odd|]. intro s.
    apply (s_bindw _ _ _ 0 0 0); [apply sw_sub_tree|]. intro t. apply sound_w, s_ret.
Qed.
Lemma s_in_parens_expr m : calls m -> sound m (in_parens (r_expr rec)) (taking 0 0).
Proof. intro H. apply s_in_parens. intros m' L. snd. Qed.
Lemma s_in_parens_commas m : calls m -> sound m (in_parens (ptext (commas rec))) (taking 0 0).
Proof. intro H. apply s_in_parens. intros m' L. unfold commas. snd. Qed.
Local Hint Resolve s_in_parens_expr s_in_parens_commas : rules.
Section At3.
Variable m : nat.
Hypothesis H : calls m.
Lemma s_func_single : sound m (func_single rec) (taking 0 0).
Proof.
  unfold func_single. apply (s_step _ _ _ 0 0 0); [apply s_func_name; reflexivity|]. intros n m' L'.
  assert (H' : calls m') by (apply (calls_le m); [lia|exact H]).
  change (sound m' (sp <~ (sp <~ scripts rec ;; s <~ sub_tree (fst sp) ;; pret (s, snd sp)) ;;
     a <~ (in_parens (r_expr rec) <|> r_mp_nofunc rec) ;; pret (TFunc (fst n) (snd n) (fst sp) (snd sp) a)) (shift 0 0)).
  apply (s_bind _ _ _ 0 0 0); [apply s_scripts_tree, H'|]. intro sp. snd.
Qed.
Lemma s_scripts : sound m (scripts rec) (shift 0 0).
Proof. unfold scripts. snd. Qed.
Lemma s_func_multi : sound m (func_multi rec) (taking 0 0).
Proof.
  unfold func_multi. apply (s_step _ _ _ 0 0 0); [apply s_func_name; reflexivity|]. intros n m' L'.
  apply (s_bind _ _ _ 0 0 0); [|intro; snd]. unfold scripts. snd.
Qed.
Lemma s_apply_args : sound m (apply_args rec) (taking 0 0).
Proof. unfold apply_args, func_common_args, commas. snd. Qed.
End At3.
Local Hint Resolve s_apply_args : rules.
Section At4.
Variable m : nat.
Hypothesis H : calls m.
Lemma s_func_apply : sound m (func_apply rec) (taking 0 0).
Proof. unfold func_apply. snd. Qed.
Lemma s_empty_script k : plain k -> sound m (empty_script k) (taking 0 0).
Proof.
  intros [P1 P2]. unfold empty_script. cbn [ptoks]. apply (s_step _ _ _ 0 0 0); [|intro; snd].
  apply s_plain. cbn. apply N.eqb_neq in P1, P2. rewrite P1, P2. reflexivity.
Qed.
Lemma s_empty_scripts k k' : plain k -> plain k' -> sound m (_ <~ empty_script k ;; _ <~ empty_script k' ;; pret (@None (tree * tree))) (shift 0 0).
Proof.
  intros P1 P2. apply (s_bind _ _ _ 0 0 0); [apply s_loose, s_empty_script, P1|]. intros _.
  apply (s_bind _ _ _ 0 0 0); [apply s_loose, s_empty_script, P2|]. intros _. apply s_ret.
Qed.
Lemma s_int_limits : sound m (int_limits rec) (shift 0 0).
Proof.
  unfold int_limits. repeat apply s_alt.
  - apply s_loose, (s_odd _ _ _ 0 0 0); [snd|apply subexpr_odd|]. intro s. apply (s_bindw _ _ _ 0 0 0); [apply sound_w; snd|]. intro p.
    apply (s_bindw _ _ _ 0 0 0); [apply sw_sub_tree|]. intro t. apply sound_w, s_ret.
  - apply (s_bind _ _ _ 0 0 0); [snd|]. intro p. apply s_loose, (s_odd _ _ _ 0 0 0); [snd|apply subexpr_odd|]. intro s.
    apply (s_bindw _ _ _ 0 0 0); [apply sw_sub_tree|]. intro t. apply sound_w, s_ret.
  - apply s_empty_scripts; split; discriminate.
  - apply s_empty_scripts; split; discriminate.
  - apply s_ret.
Qed.
Lemma s_func_sqrt : sound m (func_sqrt rec) (taking 0 0).
Proof. unfold func_sqrt, pdigit. snd. Qed.
Lemma s_func_sum : sound m (func_sum rec) (taking 0 0).
Proof. unfold func_sum, subeq, equality. snd. Qed.
Lemma s_func_lim : sound m (func_lim rec) (taking 0 0).
Proof.
  unfold func_lim. apply (s_step _ _ _ 0 0 0); [snd|]. intros _. intros m' L.
  apply (s_bind _ _ _ 0 0 0); [snd|]. intros _. apply (s_bind _ _ _ 0 0 0); [snd|]. intros [[v a] d]. snd.
Qed.
Lemma s_func_e : sound m (func_e rec) (taking 0 0).
Proof. unfold func_e. snd. Qed.
End At4.
Lemma s_func_int m : calls m -> sound m (func_int rec) (taking 0 0).
Proof.
  intro H. unfold func_int. apply (s_step _ _ _ 0 0 0); [snd|]. intros _ m' L.
  apply (s_bind _ _ _ 0 0 0); [apply s_int_limits, (calls_le m); [lia|exact H]|]. intro lims. snd.
Qed.
Local Hint Resolve s_func_single s_func_multi s_func_apply s_func_int s_func_sqrt s_func_sum s_func_lim s_func_e : rules.
Section At5.
Variable m : nat.
Hypothesis H : calls m.
Lemma s_func : sound m (func rec) (taking 0 0).
Proof. unfold func. snd. Qed.
Lemma s_atom : sound m (atom rec) (taking 0 0).
Proof. unfold atom. snd. Qed.
Lemma s_brackets wrap pairs : Forall (fun oc => sound m (around (fst oc) (snd oc) (r_expr rec)) (taking 0 0)) pairs ->
  sound m (brackets wrap pairs (r_expr rec)) (taking 0 0).
Proof.
  intro F. unfold brackets. apply s_alts. induction F as [|oc l Hoc Hl IH]; [constructor|]. cbn [map]. constructor; [apply s_map, Hoc|exact IH].
Qed.
Lemma s_toks ks : forall i, Forall plain ks -> sound m (ptoks ks) (shift i i).
Proof.
  induction ks as [|k ks IH]; intros i F; [apply s_ret|]. inversion F as [|? ? [P1 P2] F']; subst. cbn [ptoks].
  apply (s_bind _ _ _ i i i); [|intros _; apply IH, F']. apply s_loose, s_plain. cbn. apply N.eqb_neq in P1, P2. rewrite P1, P2. reflexivity.
Qed.
Lemma s_around_plain o os c : Forall plain (o :: os) -> Forall plain c -> sound m (around (o :: os) c (r_expr rec)) (taking 0 0).
Proof.
  intros Fo Fc. unfold around. apply (s_step _ _ _ 0 0 0).
  - cbn [ptoks]. inversion Fo as [|? ? [P1 P2] F']; subst. apply (s_step _ _ _ 0 0 0); [|intros _; apply sound_below, s_toks, F'].
    apply s_plain. cbn. apply N.eqb_neq in P1, P2. rewrite P1, P2. reflexivity.
  - intros _ m' L. apply (s_bind _ _ _ 0 0 0); [snd|]. intro t. apply (s_bind _ _ _ 0 0 0); [|intro; apply s_ret].
    apply (s_mono m); [lia|]. apply s_toks, Fc.
Qed.
Lemma s_around_brace os cs : Forall plain os -> Forall plain cs -> sound m (around (os ++ [K_L_BRACE]) (cs ++ [K_R_BRACE]) (r_expr rec)) (taking 0 0).
Proof.
  intros Fo Fc. unfold around.
  assert (Ho : sound m (ptoks (os ++ [K_L_BRACE])) (taking 0 1)).
  { induction Fo as [|k ks [P1 P2] F IH]; cbn [app ptoks].
    - snd.
    - apply (s_then _ _ _ 0 0 1); [|intros _; apply IH]. apply s_loose, s_plain. cbn. apply N.eqb_neq in P1, P2. rewrite P1, P2. reflexivity. }
  assert (Hc : sound m (ptoks (cs ++ [K_R_BRACE])) (shift 1 0)).
  { induction Fc as [|k ks [P1 P2] F IH]; cbn [app ptoks].
    - snd.
    - apply (s_bind _ _ _ 1 1 0); [|intros _; apply IH]. apply s_loose, s_plain. cbn. apply N.eqb_neq in P1, P2. rewrite P1, P2. reflexivity. }
  apply (s_step _ _ _ 0 1 0); [exact Ho|]. intros _ m' L. apply (s_bind _ _ _ 1 1 0); [snd|]. intro t.
  apply (s_bind _ _ _ 1 0 0); [|intro; apply s_ret]. apply (s_mono m); [lia|exact Hc].
Qed.
Ltac plains := repeat apply Forall_cons; [..|apply Forall_nil]; split; discriminate.
Ltac pairs := apply s_brackets; unfold group_pairs, norm_pairs, abs_pairs, floor_pairs, ceil_pairs, sized; cbn [map app fst snd];
  repeat apply Forall_cons; try apply Forall_nil; cbn [fst snd];
  first [ apply (s_around_brace [] []); solve [plains|apply Forall_nil]
        | apply (s_around_brace [K_L_LEFT] [K_R_RIGHT]); plains
        | apply (s_around_brace [K_ML_LEFT] [K_MR_RIGHT]); plains
        | apply s_around_plain; plains ].
Lemma s_comp b : sound m (comp rec b) (taking 0 0).
Proof.
  unfold comp. do 9 (apply s_alt; [first [pairs|apply s_atom|destruct b; [apply s_func|apply s_fail]|solve [snd]]|]). snd.
Qed.
End At5.
Local Hint Resolve s_comp s_atom : rules.
Section At6.
Variable m : nat.
Hypothesis H : calls m.
Lemma s_exp b : sound m (exp rec b) (taking 0 0).
Proof. unfold exp, exp_op. snd. Qed.
Lemma s_postfix_op : sound m (postfix_op rec) (taking 0 0).
Proof. unfold postfix_op, eval_at, at_part, equality. snd. Qed.
End At6.
Local Hint Resolve s_exp s_postfix_op : rules.
Lemma s_postfix m b : calls m -> sound m (postfix rec b) (taking 0 0).
Proof. intro H. unfold postfix. snd. Qed.
Local Hint Resolve s_postfix : rules.
Lemma s_unary m : calls m -> sound m (unary rec) (taking 0 0).
Proof. intro H. unfold unary. snd. Qed.
Lemma s_unary_nofunc m : calls m -> sound m (unary_nofunc rec) (taking 0 0).
Proof. intro H. unfold unary_nofunc. snd. Qed.
Local Hint Resolve s_unary s_unary_nofunc : rules.
Lemma s_mp m : calls m -> sound m (mp rec) (taking 0 0).
Proof. intro H. unfold mp, chain, mul_ops. snd. Qed.
Lemma s_mp_nofunc m : calls m -> sound m (mp_nofunc rec) (taking 0 0).
Proof. intro H. unfold mp_nofunc, chain, mul_ops. snd. Qed.
Local Hint Resolve s_mp s_mp_nofunc : rules.
Lemma s_additive m : calls m -> sound m (additive rec) (taking 0 0).
Proof. intro H. unfold additive, chain. snd. Qed.
Lemma s_level m : calls m -> sound m (r_expr (level rec)) (taking 0 0) /\ sound m (r_mp (level rec)) (taking 0 0)
  /\ sound m (r_mp_nofunc (level rec)) (taking 0 0) /\ sound m (r_atom (level rec)) (taking 0 0).
Proof. intro H. repeat split; [apply s_additive|apply s_mp|apply s_mp_nofunc|apply s_atom]; exact H. Qed.
End Rules.

Lemma s_rules n : calls (rules_upto n) n.
Proof.
  induction n as [|n IH]; [repeat split; intros m' L; lia|].
  destruct (s_level (rules_upto n) n IH) as (A & B & C & D).
  split; [|split; [|split]]; intros m' L; apply (s_mono n); try lia; [exact A|exact B|exact C|exact D].
Qed.
Lemma s_expr n : sound n (r_expr (rules_upto (S n))) (taking 0 0).
Proof. apply s_rules. lia. Qed.

(** Whole inputs *)
Section Whole.
Variable expr : P tree.
Variable m : nat.
Hypothesis E : sound m expr (taking 0 0).
Lemma s_relation : sound m (relation expr) (taking 0 0).
Proof.
  unfold relation. apply (s_step m _ _ 0 0 0); [exact E|]. intro a. apply sound_below. apply (s_bind m _ _ 0 0 0); [|intro; apply s_ret].
  apply s_many. apply (s_step m _ _ 0 0 0); [apply s_plain; reflexivity|]. intro o. apply sound_below.
  apply (s_bind m _ _ 0 0 0); [apply s_loose, E|]. intro b. apply s_ret.
Qed.
Lemma s_relations sep : negb (sep =? K_L_BRACE) && negb (sep =? K_R_BRACE) = true -> sound m (relations expr sep) (taking 0 0).
Proof.
  intro Hs. assert (H : sound m (ptok sep) (taking 0 0)) by (apply s_plain; cbn; rewrite Hs; reflexivity).
  unfold relations. apply (s_step m _ _ 0 0 0); [apply s_relation|]. intro a. apply sound_below.
  apply (s_bind m _ _ 0 0 0); [apply s_loose, H|]. intro b. apply (s_bind m _ _ 0 0 0); [apply s_loose, s_relation|]. intro c.
  apply (s_bind m _ _ 0 0 0); [|intro; apply s_ret]. apply s_many. apply (s_step m _ _ 0 0 0); [exact H|]. intro d. apply sound_below, s_loose, s_relation.
Qed.
Lemma s_content : sound m (relation_list_content expr) (taking 0 0).
Proof. apply s_alt; apply s_relations; reflexivity. Qed.
Lemma s_pair op cl i : sound m (ptoks op) (shift 0 i) -> sound m (ptoks cl) (shift i 0) ->
  sound m (_ <~ ptoks op ;; l <~ relation_list_content expr ;; _ <~ ptoks cl ;; pret l) (shift 0 0).
Proof.
  intros Ho Hc. apply (s_bind m _ _ 0 i 0); [exact Ho|]. intro a. apply (s_bind m _ _ i i 0); [apply s_loose, s_up, s_content|]. intro b.
  apply (s_bind m _ _ i 0 0); [exact Hc|]. intro c. apply s_ret.
Qed.
Lemma s_ptoks_plain ks : forallb (fun k => negb (k =? K_L_BRACE) && negb (k =? K_R_BRACE)) ks = true -> sound m (ptoks ks) (shift 0 0).
Proof.
  induction ks as [|k ks IH]; cbn [ptoks forallb]; intro H; [apply s_ret|]. apply andb_true_iff in H. destruct H as [H1 H2].
  apply (s_bind m _ _ 0 0 0); [apply s_loose, s_plain; cbn; rewrite H1; reflexivity|]. intro a. apply IH, H2.
Qed.
Lemma s_relation_list : sound m (relation_list expr) (shift 0 0).
Proof.
  unfold relation_list, list_pairs. cbn [map fst snd]. apply s_alts. repeat (apply Forall_cons; [|]); try apply Forall_nil;
    try (apply (s_pair _ _ 0); apply s_ptoks_plain; reflexivity).
  apply (s_pair _ _ 1).
  - apply (s_bind m _ _ 0 1 1); [apply s_loose, s_open|]. intro a. apply s_ret.
  - apply (s_bind m _ _ 1 0 0); [apply s_loose, s_close|]. intro a. apply s_ret.
Qed.
Lemma s_math : sound m (math expr) (shift 0 0).
Proof. apply s_alt; apply s_map; [apply s_loose, s_relation|apply s_relation_list]. Qed.
End Whole.
Lemma parse_sound ts : parse ts <> NoParse -> balanced ts \/ (parse ts = Unknown /\ odd ts).
Proof.
  unfold parse. intro N. destruct (s_math _ (List.length ts) (s_expr (List.length ts)) ts complete (le_n _) N) as [(a & c & r & E & Q & K)|U]; [|right; exact U].
  left. rewrite <- K in N. destruct r; [|destruct N; reflexivity]. rewrite app_nil_r in E. subst. exact Q.
Qed.
(** In terms of counts: no prefix closes more than it opens, and the whole closes what it opens *)
Definition opens (ts : list token) : nat := List.length (filter (fun t => kind t =? K_L_BRACE) ts).
Definition closes (ts : list token) : nat := List.length (filter (fun t => kind t =? K_R_BRACE) ts).
Lemma depth_count ts : forall d e, depth d ts = Some e -> (d + opens ts = e + closes ts)%nat.
Proof.
  induction ts as [|t ts IH]; intros d e H; cbn [depth] in H; [injection H as ->; reflexivity|].
  unfold opens, closes in *. cbn [filter]. destruct (N.eqb_spec (kind t) K_L_BRACE) as [El|Nl].
  - replace (kind t =? K_R_BRACE) with false by (rewrite El; reflexivity). cbn [List.length]. specialize (IH _ _ H). lia.
  - destruct (kind t =? K_R_BRACE) eqn:Er; [|apply IH, H]. destruct d as [|d]; [discriminate|]. cbn [List.length]. specialize (IH _ _ H). lia.
Qed.
Lemma balanced_counts ts : balanced ts -> opens ts = closes ts /\ (forall a b, ts = a ++ b -> (closes a <= opens a)%nat).
Proof.
  intro B. specialize (B 0%nat). cbn [plus] in B. split; [apply depth_count in B; lia|]. intros a b ->. rewrite depth_app in B.
  destruct (depth 0 a) as [e|] eqn:Ea; [|discriminate]. apply depth_count in Ea. lia.
Qed.
Theorem parse_braces ts t : parse ts = Found t -> opens ts = closes ts /\ (forall a b, ts = a ++ b -> (closes a <= opens a)%nat).
Proof.
  intro H. destruct (parse_sound ts) as [B|[U _]]; [rewrite H; discriminate|apply balanced_counts, B|congruence].
Qed.
Theorem parse_unknown ts : parse ts = Unknown -> Exists (fun t => kind t = K_UNDERSCORE \/ kind t = K_MATRIX_XRIGHTARROW) ts.
Proof.
  intro U. assert (N : parse ts <> NoParse) by (rewrite U; discriminate).
  destruct (s_math _ (List.length ts) (s_expr (List.length ts)) ts complete (le_n _) N) as [(a & c & r & E & Q & K)|[_ O]]; [|exact O].
  change (complete a r = parse ts) in K. rewrite U in K. destruct r; discriminate.
Qed.
