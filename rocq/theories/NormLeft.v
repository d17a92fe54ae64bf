(** Brackets sized with \left and \right (/repo/math_evaluation/core/latex_normalize.py:321-325). *)
From Coq Require Import String List NArith ZArith Bool Lia.
From Verif Require Import UnicodeTables PyStr PyStrTheory NumTheory Regex RegexTheory RegexFirst Float64 FloatTheory Constants
  Normalize NormTheory NormNum NormTime NormShape NormDollar.
Import ListNotations.
Local Open Scope N_scope.

(** ** Specification: a formula whose brackets may each be sized *)
Definition part_cp : N -> bool := digits_and (u "+-*/^=.,<>|xyz").
Inductive bit := Ch (c : N) | Br (sized : bool) (b : N).
Definition bit_ok (x : bit) : Prop := match x with Ch c => part_cp c = true | Br _ b => In b (u "()[]") end.
Definition plain_bit (x : bit) : pystr := match x with Ch c => [c] | Br _ b => [b] end.
Definition opens (b : N) : bool := mem_cp (u "([") b.
Definition written_bit (x : bit) : pystr :=
  match x with
  | Br true b => if opens b then u "\left" ++ [b] else u "\right" ++ [b]
  | _ => plain_bit x
  end.
Definition written (l : list bit) : pystr := flat_map written_bit l.
Definition unsized (l : list bit) : pystr := flat_map plain_bit l.

(** ** A pattern that is a literal text is replaced as by str.replace *)
Lemma sub_go_replace p q : p <> [] -> forall s k pre, sub_go (rstr p) (fun _ cs => expand [PLit q] cs) k pre s = replace_go p q k s.
Proof.
  intro Hp. assert (X : forall cs, expand [PLit q] cs = q) by (intro cs; unfold expand; cbn [flat_map]; apply app_nil_r).
  induction s as [|c s IH]; intros k pre; [reflexivity|]. cbn [sub_go replace_go]. destruct k as [|k]; [|apply IH].
  destruct (starts_with p (c :: s)) eqn:E.
  - apply starts_with_spec in E. destruct E as [t E].
    assert (match_at (rstr p) pre (c :: s) = Some (MSt (rev p ++ pre) t [])) as ->.
    { pose proof (fm_rstr p pre t []) as F. unfold fm in F. unfold match_at. rewrite E. exact F. }
    cbn [after caps]. assert (L : (length (c :: s) - length t = length p)%nat) by (rewrite E, app_length; lia). rewrite L.
    destruct (length p) as [|n] eqn:El; [destruct p; [congruence|discriminate]|]. rewrite X, Nat.sub_succ, Nat.sub_0_r. f_equal. apply IH.
  - assert (match_at (rstr p) pre (c :: s) = None) as ->.
    { pose proof (nm_rstr p pre (c :: s) [] E) as F. unfold nm in F. unfold match_at. rewrite F. reflexivity. }
    f_equal. apply IH.
Qed.
Lemma sub_replace p q s : p <> [] -> re_sub (rstr p) [PLit q] s = replace p q s.
Proof. intro H. unfold re_sub, re_sub_fun, replace. apply sub_go_replace, H. Qed.
Lemma del_absent p s : p <> [] -> contains p s = false -> re_del (rstr p) s = s.
Proof.
  intros Hp H. unfold re_del. transitivity (re_sub (rstr p) [PLit []] s); [reflexivity|]. rewrite sub_replace by exact Hp. apply replace_absent, H.
Qed.

(** ** One of the four substitutions *)
Definition unsize (b : N) (x : bit) : bit := match x with Br true b' => if b' =? b then Br false b else x | _ => x end.
Definition sized_text (b : N) : pystr := if opens b then u "\left" ++ [b] else u "\right" ++ [b].
Lemma brackets (P : N -> Prop) : P 40 -> P 41 -> P 91 -> P 93 -> forall b, In b (u "()[]") -> P b.
Proof. intros ? ? ? ? b [<-|[<-|[<-|[<-|[]]]]]; assumption. Qed.
Lemma replace_step p q c s : starts_with p (c :: s) = false -> replace p q (c :: s) = c :: replace p q s.
Proof. intro H. unfold replace. cbn [replace_go]. rewrite H. reflexivity. Qed.
Lemma replace_hit p q s : p <> [] -> replace p q (p ++ s) = q ++ replace p q s.
Proof.
  intro Hp. destruct p as [|c p]; [congruence|]. unfold replace. change ((c :: p) ++ s) with (c :: p ++ s). cbn [replace_go].
  replace (starts_with (c :: p) (c :: p ++ s)) with true by (symmetry; apply starts_with_spec; exists s; reflexivity).
  f_equal. cbn [length]. rewrite Nat.sub_succ, Nat.sub_0_r. clear Hp. generalize (c :: p). intro o. induction p as [|d p IH]; [reflexivity|]. cbn [app length replace_go]. exact IH.
Qed.
Lemma not_start b c s : c <> 92 -> starts_with (sized_text b) (c :: s) = false.
Proof. intro H. unfold sized_text. destruct (opens b); [change (u "\left" ++ [b]) with (92 :: u "left" ++ [b])|change (u "\right" ++ [b]) with (92 :: u "right" ++ [b])]; cbn [starts_with];
    (destruct (N.eqb_spec 92 c); [congruence|reflexivity]). Qed.
Lemma part_not c : part_cp c = true -> c <> 92.
Proof. intros H ->. discriminate H. Qed.
Lemma bracket_not b : In b (u "()[]") -> b <> 92.
Proof. revert b. apply brackets; discriminate. Qed.
Lemma replace_bits b l : In b (u "()[]") -> Forall bit_ok l -> replace (sized_text b) [b] (written l) = written (map (unsize b) l).
Proof.
  intro Hb. assert (Hne : sized_text b <> []) by (unfold sized_text; destruct (opens b); discriminate).
  induction l as [|x l IH]; intro F; [reflexivity|]. inversion F as [|? ? Hx F']; subst. specialize (IH F').
  unfold written in *. cbn [flat_map map]. destruct x as [c|[|] b'].
  - cbn [written_bit plain_bit unsize app]. rewrite replace_step by apply not_start, part_not, Hx. rewrite IH. reflexivity.
  - cbn [unsize]. destruct (N.eqb_spec b' b) as [->|Hd].
    + change (written_bit (Br true b)) with (sized_text b). rewrite replace_hit by exact Hne. rewrite IH. reflexivity.
    + cbn [bit_ok] in Hx. rewrite <- IH. clear IH F F' Hne. generalize (flat_map written_bit l). intro s.
      change (u "()[]") with [40; 41; 91; 93] in Hb, Hx. cbn [In] in Hb, Hx.
      destruct Hb as [<-|[<-|[<-|[<-|[]]]]]; destruct Hx as [<-|[<-|[<-|[<-|[]]]]]; (congruence || reflexivity).
  - cbn [written_bit plain_bit unsize app]. cbn [bit_ok] in Hx. rewrite replace_step by apply not_start, bracket_not, Hx. rewrite IH. reflexivity.
Qed.
Lemma unsize_ok b l : In b (u "()[]") -> Forall bit_ok l -> Forall bit_ok (map (unsize b) l).
Proof.
  intros Hb. induction 1 as [|x l Hx _ IH]; constructor; [|exact IH]. destruct x as [c|[|] b']; cbn [unsize]; try exact Hx.
  destruct (b' =? b); [exact Hb|exact Hx].
Qed.
Lemma all_unsized l : Forall bit_ok l -> written (map (unsize 93) (map (unsize 41) (map (unsize 91) (map (unsize 40) l)))) = unsized l.
Proof.
  induction 1 as [|x l Hx _ IH]; [reflexivity|]. unfold written, unsized in *. cbn [map flat_map]. rewrite IH. f_equal.
  destruct x as [c|[|] b]; [reflexivity| |reflexivity]. cbn [bit_ok] in Hx. revert b Hx. apply brackets; reflexivity.
Qed.

(** ** The rest of the normaliser *)
Definition sized_cp : N -> bool := digits_and (u "+-*/^=.,<>|xyz()[]\lefright").
Lemma part_sized c : part_cp c = true -> sized_cp c = true.
Proof.
  intro H. assert (X : forallb sized_cp [c] = true); [|cbn in X; apply andb_true_iff in X; apply X].
  apply (digits_and_sub (u "+-*/^=.,<>|xyz")); [vm_compute; reflexivity|]. cbn [forallb]. unfold part_cp in H. rewrite H. reflexivity.
Qed.
Lemma written_sized l : Forall bit_ok l -> forallb sized_cp (written l) = true.
Proof.
  induction 1 as [|x l Hx _ IH]; [reflexivity|]. unfold written in *. cbn [flat_map]. rewrite forallb_app, IH, andb_true_r.
  destruct x as [c|[|] b]; cbn [bit_ok] in Hx.
  - cbn [written_bit plain_bit forallb]. rewrite part_sized by exact Hx. reflexivity.
  - revert b Hx. apply brackets; reflexivity.
  - revert b Hx. apply brackets; reflexivity.
Qed.
Lemma part_formula c : part_cp c = true -> formula_cp c = true.
Proof.
  intro H. assert (X : forallb formula_cp [c] = true); [|cbn [forallb] in X; apply andb_true_iff in X; apply X].
  apply (digits_and_sub (u "+-*/^=.,<>|xyz")); [vm_compute; reflexivity|]. cbn [forallb]. unfold part_cp in H. rewrite H. reflexivity.
Qed.
Lemma unsized_formula l : Forall bit_ok l -> forallb formula_cp (unsized l) = true.
Proof.
  induction 1 as [|x l Hx _ IH]; [reflexivity|]. unfold unsized in *. cbn [flat_map]. rewrite forallb_app, IH, andb_true_r.
  destruct x as [c|q b]; cbn [bit_ok plain_bit forallb] in *.
  - rewrite part_formula by exact Hx. reflexivity.
  - revert b Hx. apply brackets; reflexivity.
Qed.
(** a backslash is followed by l or r *)
Lemma contains_step p c s : starts_with p (c :: s) = false -> contains p (c :: s) = contains p s.
Proof. intro H. rewrite contains_cons, H. reflexivity. Qed.
Lemma no_command d l : d <> 108 -> d <> 114 -> Forall bit_ok l -> contains [92; d] (written l) = false.
Proof.
  intros H1 H2. assert (N : forall c s, c <> 92 -> starts_with [92; d] (c :: s) = false) by (intros c s H; cbn [starts_with]; destruct (N.eqb_spec 92 c); [congruence|reflexivity]).
  assert (S : forall c s, c = 108 \/ c = 114 -> starts_with [92; d] (92 :: c :: s) = false).
  { intros c s Hc. cbn [starts_with]. destruct (N.eqb_spec d c) as [->|_]; [destruct Hc; congruence|reflexivity]. }
  induction 1 as [|x l Hx _ IH]; [reflexivity|]. unfold written in *. cbn [flat_map]. destruct x as [c|[|] b]; cbn [bit_ok] in Hx.
  - cbn [written_bit plain_bit app]. rewrite contains_step by apply N, part_not, Hx. exact IH.
  - assert (E : exists c w, (c = 108 \/ c = 114) /\ ~ In 92 w /\ written_bit (Br true b) = 92 :: c :: w).
    { revert b Hx. apply brackets; [exists 108, (u "eft(")|exists 114, (u "ight)")|exists 108, (u "eft[")|exists 114, (u "ight]")]; (split; [tauto|split; [vm_compute; intuition discriminate|reflexivity]]). }
    destruct E as (c & w & Hc & Hw & ->). cbn [app]. rewrite contains_step by apply S, Hc. rewrite contains_step by (apply N; destruct Hc; subst; discriminate).
    induction w as [|y w IHw]; [exact IH|]. cbn [app]. rewrite contains_step by (apply N; intros ->; apply Hw; left; reflexivity). apply IHw. intro X. apply Hw. right. exact X.
  - cbn [written_bit plain_bit app]. rewrite contains_step by apply N, bracket_not, Hx. exact IH.
Qed.
Lemma written_ends l : Forall bit_ok l -> strip_sp (written l) = written l.
Proof. intro F. apply strip_sp_id. apply (alpha_not_in sized_cp); [reflexivity|apply written_sized, F]. Qed.
Definition sized_res : list regex := [text_wrap_re; set_builder_re; rs "\:"; rs "\;"; rs "\!"; rs "{,}"; base_re; and_or_re; in_re].
Lemma sized_needs : forallb (needs (out_of sized_cp)) sized_res = true.
Proof. vm_compute. reflexivity. Qed.
Lemma words_sized l : Forall bit_ok l -> rewrite_words (written l) = unsized l.
Proof.
  intro F. pose proof (written_sized l F) as Hs. pose proof sized_needs as G. rewrite forallb_forall in G. unfold rewrite_words.
  rewrite (alpha_replace sized_cp (u "\$")), (alpha_replace sized_cp (u "$")) by (exact Hs || reflexivity).
  rewrite (alpha_sub sized_cp and_or_re) by (exact Hs || (apply G; unfold sized_res; repeat first [left; reflexivity|right])).
  rewrite (alpha_replace sized_cp (u "million")), (alpha_replace sized_cp (u "billion")), (alpha_replace sized_cp (u "trillion")), (alpha_replace sized_cp [12]),
    (alpha_replace sized_cp [8]), (alpha_replace sized_cp [7]), (alpha_replace sized_cp [9]), (alpha_replace sized_cp [13]) by (exact Hs || reflexivity).
  unfold rs. rewrite !sub_replace by discriminate.
  change (u "\left(") with (sized_text 40). change (u "\left[") with (sized_text 91). change (u "\right)") with (sized_text 41). change (u "\right]") with (sized_text 93).
  change (u "(") with [40]. change (u "[") with [91]. change (u ")") with [41]. change (u "]") with [93].
  assert (B : In 40 (u "()[]") /\ In 41 (u "()[]") /\ In 91 (u "()[]") /\ In 93 (u "()[]")) by (vm_compute; tauto). destruct B as (B1 & B2 & B3 & B4).
  rewrite !replace_bits by (repeat apply unsize_ok; assumption). rewrite all_unsized by exact F.
  apply (alpha_del formula_cp); [vm_compute; reflexivity|apply unsized_formula, F].
Qed.
Theorem sizes_dropped ints l : Forall bit_ok l -> string_normalize ints (written l) = string_normalize ints (unsized l).
Proof.
  intro F. pose proof (written_sized l F) as Hs. pose proof sized_needs as G. rewrite forallb_forall in G.
  assert (Hp : prepared (written l) = written l).
  { unfold prepared. rewrite written_ends by exact F. unfold str_matrix_normalize. rewrite (alpha_contains sized_cp (u "{cases}")), (alpha_contains sized_cp (u "{array}")) by (reflexivity || exact Hs).
    destruct (negb _); [|reflexivity]. apply replace_absent, no_command; [discriminate|discriminate|exact F]. }
  rewrite normalize_step, Hp.
  rewrite (alpha_search sized_cp text_wrap_re) by (exact Hs || (apply G; cbn; tauto)).
  rewrite (alpha_search sized_cp set_builder_re) by (exact Hs || (apply G; cbn; tauto)).
  unfold norm_tail.
  assert (del_tex_space (written l) = written l) as ->.
  { unfold del_tex_space. rewrite (alpha_del sized_cp (rs "\:")) by (exact Hs || (apply G; unfold sized_res; repeat first [left; reflexivity|right])).
    rewrite (del_absent (u "\,") (written l) : _ -> _ -> re_del (rs "\,") (written l) = written l) by (discriminate || (apply no_command; [discriminate|discriminate|exact F])).
    rewrite (alpha_del sized_cp (rs "\;")), (alpha_del sized_cp (rs "\!")) by (exact Hs || (apply G; unfold sized_res; repeat first [left; reflexivity|right])).
    apply alpha_sub with (alpha := sized_cp); [apply G; unfold sized_res; repeat first [left; reflexivity|right]|exact Hs]. }
  rewrite (alpha_search sized_cp base_re) by (exact Hs || (apply G; unfold sized_res; repeat first [left; reflexivity|right])).
  rewrite (alpha_contains sized_cp (u "%")) by (reflexivity || exact Hs). cbv zeta.
  rewrite words_sized by exact F.
  rewrite <- (tail_formula ints (unsized l)) by apply unsized_formula, F.
  rewrite (inert_words formula_cp formula_inert (unsized l) (unsized_formula l F)). reflexivity.
Qed.
