(** Spacing commands and braced commas (/repo/math_evaluation/core/latex_normalize.py:271-277). *)
From Coq Require Import String List NArith ZArith Bool Lia.
From Verif Require Import UnicodeTables PyStr PyStrTheory NumTheory Regex RegexTheory RegexFirst Float64 FloatTheory Constants
  Normalize NormTheory NormNum NormTime NormShape NormDollar NormLeft NormIn Spec Monad MonadTheory Eval EvalTheory EvalTheory2 SplitTheory.
Import ListNotations.
Local Open Scope N_scope.

(** ** Specification: a formula with spacing commands anywhere and commas that may be braced *)
Inductive glyph := Gl (c : N) | Thin (d : N) | Comma.
Definition glyph_ok (x : glyph) : Prop := match x with Gl c => set_cp c = true | Thin d => In d (u ":,;!") | Comma => True end.
Definition spaced_glyph (x : glyph) : pystr := match x with Gl c => [c] | Thin d => [92; d] | Comma => u "{,}" end.
Definition bare_glyph (x : glyph) : pystr := match x with Gl c => [c] | Thin _ => [] | Comma => u "," end.
Definition typeset (l : list glyph) : pystr := flat_map spaced_glyph l.
Definition bare (l : list glyph) : pystr := flat_map bare_glyph l.

(** ** The five substitutions *)
Definition drop (d : N) (l : list glyph) : list glyph := filter (fun x => match x with Thin d' => negb (d' =? d) | _ => true end) l.
Lemma set_cmd c : set_cp c = true -> c <> 92 /\ c <> 123.
Proof. intro H. split; intros ->; discriminate H. Qed.
Lemma replace_thin d l : Forall glyph_ok l -> replace [92; d] [] (typeset l) = typeset (drop d l).
Proof.
  assert (N : forall c s, c <> 92 -> starts_with [92; d] (c :: s) = false) by (intros c s H; cbn [starts_with]; destruct (N.eqb_spec 92 c); [congruence|reflexivity]).
  induction 1 as [|x l Hx _ IH]; [reflexivity|]. unfold typeset, drop in *. cbn [flat_map filter]. destruct x as [c|d'|]; cbn [glyph_ok] in Hx.
  - cbn [spaced_glyph app flat_map]. rewrite replace_step by apply N, (set_cmd c Hx). rewrite IH. reflexivity.
  - cbn [spaced_glyph]. destruct (N.eqb_spec d' d) as [->|Hd]; cbn [negb].
    + rewrite replace_hit by discriminate. exact IH.
    + cbn [flat_map spaced_glyph app]. rewrite replace_step by (cbn [starts_with]; destruct (N.eqb_spec d d'); [congruence|reflexivity]).
      rewrite replace_step by (apply N; destruct Hx as [<-|[<-|[<-|[<-|[]]]]]; discriminate). rewrite IH. reflexivity.
  - cbn [flat_map]. change (spaced_glyph Comma) with [123; 44; 125]. cbn [app]. rewrite !replace_step by (apply N; discriminate). rewrite IH. reflexivity.
Qed.
Lemma drop_ok d l : Forall glyph_ok l -> Forall glyph_ok (drop d l).
Proof. intro F. apply incl_Forall with l; [|exact F]. intros x H. apply filter_In in H. apply H. Qed.
Lemma thin_del d l : Forall glyph_ok l -> re_del (rstr [92; d]) (typeset l) = typeset (drop d l).
Proof. intro F. transitivity (re_sub (rstr [92; d]) [PLit []] (typeset l)); [reflexivity|]. rewrite sub_replace by discriminate. apply replace_thin, F. Qed.
Definition thinless (x : glyph) : Prop := match x with Thin _ => False | _ => True end.
Lemma replace_braced l : Forall glyph_ok l -> Forall thinless l -> replace (u "{,}") (u ",") (typeset l) = bare l.
Proof.
  induction 1 as [|x l Hx _ IH]; intro T; [reflexivity|]. inversion T as [|? ? Tx T']; subst. specialize (IH T'). unfold typeset, bare in *. cbn [flat_map]. destruct x as [c|d'|]; cbn [glyph_ok thinless] in *.
  - cbn [spaced_glyph bare_glyph app]. rewrite replace_step; [rewrite IH; reflexivity|]. change (u "{,}") with [123; 44; 125]. cbn [starts_with]. destruct (N.eqb_spec 123 c) as [<-|_]; [discriminate Hx|reflexivity].
  - contradiction.
  - change (spaced_glyph Comma) with (u "{,}"). rewrite replace_hit by discriminate. rewrite IH. reflexivity.
Qed.
Lemma drop_all l : Forall glyph_ok l -> Forall thinless (drop 33 (drop 59 (drop 44 (drop 58 l)))) /\ bare (drop 33 (drop 59 (drop 44 (drop 58 l)))) = bare l.
Proof.
  induction 1 as [|x l Hx _ [IH1 IH2]]; [split; [constructor|reflexivity]|]. destruct x as [c|d|]; cbn [glyph_ok] in Hx.
  - unfold drop, bare in *. cbn [filter flat_map]. rewrite IH2. split; [constructor; [exact I|exact IH1]|reflexivity].
  - assert (drop 33 (drop 59 (drop 44 (drop 58 (Thin d :: l)))) = drop 33 (drop 59 (drop 44 (drop 58 l)))) as -> by (destruct Hx as [<-|[<-|[<-|[<-|[]]]]]; reflexivity).
    split; [exact IH1|exact IH2].
  - unfold drop, bare in *. cbn [filter flat_map]. rewrite IH2. split; [constructor; [exact I|exact IH1]|reflexivity].
Qed.
Lemma tex_space_dropped l : Forall glyph_ok l -> del_tex_space (typeset l) = bare l.
Proof.
  intro F. unfold del_tex_space, rs. cbv zeta. change (u "\:") with [92; 58]. change (u "\,") with [92; 44]. change (u "\;") with [92; 59]. change (u "\!") with [92; 33].
  rewrite !thin_del by (repeat apply drop_ok; exact F). rewrite sub_replace by discriminate. destruct (drop_all l F) as [T <-].
  apply replace_braced; [repeat apply drop_ok; exact F|exact T].
Qed.

(** ** The steps before *)
Definition glyph_cp : N -> bool := digits_and (u "+-*/^()=.,<>|[]xyz\:;!{}").
Lemma set_glyph s : forallb set_cp s = true -> forallb glyph_cp s = true.
Proof. apply digits_and_sub. vm_compute. reflexivity. Qed.
Lemma typeset_cp l : Forall glyph_ok l -> forallb glyph_cp (typeset l) = true.
Proof.
  induction 1 as [|x l Hx _ IH]; [reflexivity|]. unfold typeset in *. cbn [flat_map]. rewrite forallb_app, IH, andb_true_r. destruct x as [c|d|]; cbn [glyph_ok spaced_glyph] in *.
  - apply set_glyph. cbn [forallb]. rewrite Hx. reflexivity.
  - destruct Hx as [<-|[<-|[<-|[<-|[]]]]]; reflexivity.
  - reflexivity.
Qed.
Lemma bare_cp l : Forall glyph_ok l -> forallb set_cp (bare l) = true.
Proof.
  induction 1 as [|x l Hx _ IH]; [reflexivity|]. unfold bare in *. cbn [flat_map]. rewrite forallb_app, IH, andb_true_r. destruct x as [c|d|]; cbn [glyph_ok bare_glyph forallb] in *; rewrite ?Hx; reflexivity.
Qed.
Lemma only_spacing d l : ~ In d (u ":,;!") -> Forall glyph_ok l -> contains [92; d] (typeset l) = false.
Proof.
  intro Hd. assert (N : forall c s, c <> 92 -> starts_with [92; d] (c :: s) = false) by (intros c s H; cbn [starts_with]; destruct (N.eqb_spec 92 c); [congruence|reflexivity]).
  induction 1 as [|x l Hx _ IH]; [reflexivity|]. unfold typeset in *. cbn [flat_map]. destruct x as [c|d'|]; cbn [glyph_ok] in Hx.
  - cbn [spaced_glyph app]. rewrite contains_step by apply N, (set_cmd c Hx). exact IH.
  - cbn [spaced_glyph app]. rewrite contains_step by (cbn [starts_with]; destruct (N.eqb_spec d d') as [->|_]; [contradiction|reflexivity]).
    rewrite contains_step by (apply N; destruct Hx as [<-|[<-|[<-|[<-|[]]]]]; discriminate). exact IH.
  - change (spaced_glyph Comma) with [123; 44; 125]. cbn [app]. rewrite !contains_step by (apply N; discriminate). exact IH.
Qed.
Lemma den_rstr p w : den (rstr p) w -> w = p.
Proof.
  revert w; induction p as [|c p IH]; intros w H; cbn [rstr den] in H.
  - apply den_eps in H. exact H.
  - destruct H as (w1 & w2 & -> & H1 & H2). apply den_lit in H1. rewrite H1, (IH w2 H2). reflexivity.
Qed.
Lemma no_builder l : Forall glyph_ok l -> re_search set_builder_re (typeset l) = None.
Proof.
  intro F. apply search_none_den. intros w (a & b & E) H. unfold set_builder_re in H. cbn [rseq den] in H. destruct H as (w0 & w1 & -> & H0 & w2 & w3 & -> & H2 & _).
  apply den_rstr in H2. subst w2. assert (X : contains [92; 123] (typeset l) = true).
  { apply contains_spec. exists (a ++ w0), (w3 ++ b). rewrite E. change (u "\{") with [92; 123]. rewrite <- !app_assoc. reflexivity. }
  rewrite only_spacing in X; [discriminate X| |exact F]. vm_compute. intuition discriminate.
Qed.
Lemma set_formula s : forallb set_cp s = true -> forallb formula_cp s = true.
Proof. apply digits_and_sub. vm_compute. reflexivity. Qed.
Theorem spacing_dropped ints l : Forall glyph_ok l -> string_normalize ints (typeset l) = string_normalize ints (bare l).
Proof.
  intro F. pose proof (typeset_cp l F) as A. pose proof (set_formula _ (bare_cp l F)) as B.
  assert (Hp : prepared (typeset l) = typeset l).
  { unfold prepared. rewrite strip_sp_id by (apply (alpha_not_in glyph_cp); [reflexivity|exact A]). unfold str_matrix_normalize.
    rewrite (alpha_contains glyph_cp (u "{cases}")), (alpha_contains glyph_cp (u "{array}")) by (reflexivity || exact A).
    match goal with |- (if ?b then _ else _) = _ => destruct b end; [|reflexivity]. apply replace_absent, only_spacing; [vm_compute; intuition discriminate|exact F]. }
  rewrite normalize_step, Hp. rewrite (alpha_search glyph_cp text_wrap_re) by (exact A || (vm_compute; reflexivity)). rewrite no_builder by exact F.
  unfold norm_tail. cbv zeta. rewrite tex_space_dropped by exact F.
  rewrite (alpha_search formula_cp base_re) by (exact B || (vm_compute; reflexivity)).
  rewrite (alpha_contains formula_cp (u "%")) by (reflexivity || exact B).
  apply (tail_formula ints (bare l) B).
Qed.
Theorem spacing_accepted W n l l' st : Forall glyph_ok l -> Forall glyph_ok l' -> bare l = bare l' ->
  is_equiv W (S n) (Some (typeset l)) (Some (typeset l')) st = (Ret true, st).
Proof.
  intros F F' E. pose proof (bare_cp l F) as H.
  assert (N : string_normalize (int_str W) (bare l) = NStr (further (int_str W) (bare l))).
  { apply (inert_normalize spaced_cp spaced_inert (bare l) (set_spaced _ H)).
    - apply (alpha_contains spaced_cp); [reflexivity|apply set_spaced, H].
    - apply strip_sp_id, set_not; [reflexivity|exact H]. }
  apply (is_equiv_same_norm W n _ _ (further (int_str W) (bare l))).
  - rewrite spacing_dropped by exact F. exact N.
  - rewrite spacing_dropped by exact F'. rewrite <- E. exact N.
Qed.
