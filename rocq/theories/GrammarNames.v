(** The names of functions (floor, rank, tr, gcd, …) are words of the lexer; the grammar has them only inside \operatorname{…} *)
From Coq Require Import String List NArith Bool Lia.
From Verif Require Import PyStr Regex Normalize Monad L2S Lexer Grammar.
Import ListNotations.
Local Open Scope N_scope.

Definition is_name (t : token) : bool := mem (kind t) (single_names ++ multi_names).
(** Every name stands between an [\operatorname{] and a closing brace *)
Inductive guarded : list token -> Prop :=
| g_nil : guarded []
| g_plain t c : is_name t = false -> guarded c -> guarded (t :: c)
| g_name o l n r c : kind o = K_CMD_OPERATORNAME -> kind l = K_L_BRACE -> is_name n = true -> kind r = K_R_BRACE -> guarded c -> guarded (o :: l :: n :: r :: c).
Lemma guarded_app a b : guarded a -> guarded b -> guarded (a ++ b).
Proof. intros Ha Hb. induction Ha; cbn [app]; [exact Hb|apply g_plain|apply g_name]; assumption. Qed.
Lemma guarded_at ts : guarded ts -> forall a n b, ts = a ++ n :: b -> is_name n = true ->
  exists a' o l r b', a = a' ++ [o; l] /\ b = r :: b' /\ kind o = K_CMD_OPERATORNAME /\ kind l = K_L_BRACE /\ kind r = K_R_BRACE.
Proof.
  induction 1 as [|t c Ht G IH|o l n' r c Ko Kl Hn Kr G IH]; intros a n b E Hy.
  - destruct a; discriminate.
  - destruct a as [|x a]; [injection E as -> _; congruence|]. injection E as <- E.
    destruct (IH a n b E Hy) as (a' & o & l & r & b' & -> & X). exists (t :: a'), o, l, r, b'. split; [reflexivity|exact X].
  - assert (No : forall t k, kind t = k -> mem k (single_names ++ multi_names) = false -> is_name t = false) by (intros t k <- Hk; exact Hk).
    pose proof (No o _ Ko eq_refl) as N1. pose proof (No l _ Kl eq_refl) as N2. pose proof (No r _ Kr eq_refl) as N3.
    destruct a as [|x a]; [injection E as -> _; congruence|]. injection E as <- E.
    destruct a as [|x a]; [injection E as -> _; congruence|]. injection E as <- E.
    destruct a as [|x a]; [injection E as -> <-; exists [], o, l, r, c; repeat split; assumption|]. injection E as <- E.
    destruct a as [|x a]; [injection E as -> _; congruence|]. injection E as <- E.
    destruct (IH a n b E Hy) as (a' & o2 & l2 & r2 & b' & -> & X). exists (o :: l :: n' :: r :: a'), o2, l2, r2, b'. split; [reflexivity|exact X].
Qed.

(** A parser that succeeds has taken a piece with the property *)
Definition finds {A} (p : P A) (Q : list token -> Prop) : Prop :=
  forall ts k t, p ts k = Found t -> exists a c r, ts = c ++ r /\ Q c /\ k a r = Found t.
Definition keeps {A} (p : P A) : Prop := finds p guarded.
Lemma k_ret {A} (a : A) : keeps (pret a).
Proof. intros ts k t H. exists a, [], ts. split; [reflexivity|]. split; [constructor|exact H]. Qed.
Lemma k_fail {A} : keeps (@pfail A).
Proof. intros ts k t H. discriminate H. Qed.
Lemma k_unk {A} : keeps (@punk A).
Proof. intros ts k t H. discriminate H. Qed.
Lemma k_bind {A B} (p : P A) (f : A -> P B) : keeps p -> (forall a, keeps (f a)) -> keeps (pbind p f).
Proof.
  intros Hp Hf ts k t H. unfold pbind in H. destruct (Hp _ _ _ H) as (a & c & r & -> & Q & E).
  destruct (Hf a _ _ _ E) as (b & c' & r' & -> & Q' & E'). exists b, (c ++ c'), r'. rewrite <- app_assoc. split; [reflexivity|].
  split; [apply guarded_app; assumption|exact E'].
Qed.
Lemma k_alt {A} (p q : P A) : keeps p -> keeps q -> keeps (p <|> q)%par.
Proof. intros Hp Hq ts k t H. unfold palt in H. destruct (p ts k) eqn:E; [apply Hp; rewrite E; exact H|apply Hq, H|discriminate H]. Qed.
Lemma k_map {A B} (f : A -> B) (p : P A) : keeps p -> keeps (pmap f p).
Proof. intro H. apply k_bind; [exact H|]. intro a. apply k_ret. Qed.
Lemma k_opt {A} (p : P A) : keeps p -> keeps (popt p).
Proof. intro H. apply k_alt; [apply k_map, H|apply k_ret]. Qed.
Lemma k_span {A} (p : P A) : keeps p -> keeps (pspan p).
Proof. intros H ts k t E. unfold pspan in E. destruct (H _ _ _ E) as (a & c & r & -> & Q & X). eexists _, c, r. split; [reflexivity|]. split; [exact Q|exact X]. Qed.
Lemma k_text {A} (p : P A) : keeps p -> keeps (ptext p).
Proof. intro H. apply k_map, k_span, H. Qed.
Lemma k_many_n {A} n (p : P A) : keeps p -> keeps (pmany_n n p).
Proof.
  intro H. induction n as [|n IH]; [apply k_ret|]. cbn [pmany_n]. apply k_alt; [|apply k_ret]. apply k_bind; [exact H|]. intro a.
  apply k_bind; [exact IH|]. intro l. apply k_ret.
Qed.
Lemma k_many {A} (p : P A) : keeps p -> keeps (pmany p).
Proof. intros H ts k t E. exact (k_many_n _ p H ts k t E). Qed.
Lemma k_plus {A} (p : P A) : keeps p -> keeps (pplus p).
Proof. intro H. apply k_bind; [exact H|]. intro a. apply k_bind; [apply k_many, H|]. intro l. apply k_ret. Qed.
Definition no_name (ks : list N) : bool := forallb (fun k => negb (mem k (single_names ++ multi_names))) ks.
Lemma k_one ks : no_name ks = true -> keeps (pone ks).
Proof.
  intros Hk ts k t E. unfold pone in E. destruct ts as [|x ts]; [discriminate|]. destruct (mem (kind x) ks) eqn:M; [|discriminate].
  exists x, [x], ts. split; [reflexivity|]. split; [|exact E]. apply g_plain; [|constructor].
  unfold mem in M. apply existsb_exists in M. destruct M as (k0 & I & Ek). apply N.eqb_eq in Ek.
  unfold no_name in Hk. rewrite forallb_forall in Hk. specialize (Hk _ I). unfold is_name. rewrite Ek. destruct (mem k0 _); [discriminate|reflexivity].
Qed.
Lemma k_toks ks : no_name ks = true -> keeps (ptoks ks).
Proof.
  induction ks as [|k ks IH]; intro H; [apply k_ret|]. cbn [no_name forallb] in H. apply andb_true_iff in H. destruct H as [H1 H2].
  cbn [ptoks]. apply k_bind; [apply k_one; cbn [no_name forallb]; rewrite H1; reflexivity|]. intros _. apply IH, H2.
Qed.
Lemma k_alts {A} (l : list (P A)) : Forall keeps l -> keeps (palts l).
Proof. induction 1 as [|p l Hp Hl IH]; [apply k_fail|]. cbn [palts]. destruct l; [exact Hp|]. apply k_alt; [exact Hp|exact IH]. Qed.
(** The one place of names *)
Lemma k_func_name fs ns : no_name fs = true -> incl ns (single_names ++ multi_names) -> keeps (func_name fs ns).
Proof.
  intros Hf Hn. unfold func_name. apply k_alt; [apply k_map, k_one, Hf|].
  intros ts k t E. unfold pbind, ptok, pone, pret in E.
  destruct ts as [|o ts]; [discriminate|]. destruct (mem (kind o) [K_CMD_OPERATORNAME]) eqn:Mo; [|discriminate].
  destruct ts as [|l ts]; [discriminate|]. destruct (mem (kind l) [K_L_BRACE]) eqn:Ml; [|discriminate].
  destruct ts as [|n ts]; [discriminate|]. destruct (mem (kind n) ns) eqn:Mn; [|discriminate].
  destruct ts as [|r ts]; [discriminate|]. destruct (mem (kind r) [K_R_BRACE]) eqn:Mr; [|discriminate].
  eexists _, [o; l; n; r], ts. split; [reflexivity|]. split; [|exact E].
  assert (One : forall x k0, mem (kind x) [k0] = true -> kind x = k0).
  { intros x k0 M. unfold mem in M. cbn [existsb] in M. rewrite orb_false_r in M. apply N.eqb_eq, M. }
  apply g_name; [exact (One _ _ Mo)|exact (One _ _ Ml)| |exact (One _ _ Mr)|constructor].
  unfold mem in Mn. apply existsb_exists in Mn. destruct Mn as (k0 & I & Ek). apply N.eqb_eq in Ek. unfold is_name, mem. apply existsb_exists.
  exists k0. split; [apply Hn, I|]. apply N.eqb_eq, Ek.
Qed.

Ltac kp := repeat first
  [ match goal with H : keeps ?q |- keeps ?p => constr_eq p q; exact H end
  | match goal with
    | |- forall _, _ => intro
    | |- keeps (match ?x with _ => _ end) => destruct x
    | |- keeps (let _ := _ in _) => cbv zeta
    | |- keeps (pret _) => apply k_ret
    | |- keeps pfail => apply k_fail
    | |- keeps punk => apply k_unk
    | |- keeps (pbind _ _) => apply k_bind
    | |- keeps (palt _ _) => apply k_alt
    | |- keeps (pmap _ _) => apply k_map
    | |- keeps (popt _) => apply k_opt
    | |- keeps (ptext _) => apply k_text
    | |- keeps (pspan _) => apply k_span
    | |- keeps (pmany _) => apply k_many
    | |- keeps (pplus _) => apply k_plus
    | |- keeps (pone _) => apply k_one; reflexivity
    | |- keeps (ptoks _) => apply k_toks; reflexivity
    end
  | progress cbv beta ].
Section Rules.
Variable rec : rules_at.
Hypothesis He : keeps (r_expr rec).
Hypothesis Hm : keeps (r_mp rec).
Hypothesis Hn : keeps (r_mp_nofunc rec).
Hypothesis Ha : keeps (r_atom rec).
Lemma k_brackets w pairs : forallb (fun oc => no_name (fst oc) && no_name (snd oc)) pairs = true -> keeps (brackets w pairs (r_expr rec)).
Proof.
  intro H. unfold brackets. apply k_alts. apply Forall_forall. intros q I. apply in_map_iff in I. destruct I as (oc & <- & I).
  rewrite forallb_forall in H. specialize (H _ I). apply andb_true_iff in H. destruct H as [H1 H2].
  apply k_map. unfold around. apply k_bind; [apply k_toks, H1|]. intros _. apply k_bind; [exact He|]. intro t. apply k_bind; [apply k_toks, H2|]. intros _. apply k_ret.
Qed.
Lemma k_commas : keeps (commas rec). Proof. unfold commas, ptok. kp. Qed.
Lemma k_subexpr : keeps (subexpr rec). Proof. pose proof k_commas. unfold subexpr, ptok. kp. Qed.
Lemma k_supexpr : keeps (supexpr rec). Proof. unfold supexpr, ptok. kp. Qed.
Lemma k_name_part : keeps (name_part rec). Proof. unfold name_part, accent, ptok. kp. Qed.
Lemma k_atom_expr : keeps (atom_expr rec). Proof. pose proof k_name_part. pose proof k_subexpr. pose proof k_supexpr. unfold atom_expr. kp. Qed.
Lemma k_frac : keeps (frac rec). Proof. unfold frac, pdigit, ptok. kp. Qed.
Lemma k_numbers : keeps p_number_toks. Proof. unfold p_number_toks, pdigit, ptok. kp. Qed.
Lemma k_atom : keeps (atom rec).
Proof.
  pose proof k_atom_expr. pose proof k_frac. pose proof k_numbers. unfold atom, p_e_notation, p_percent, p_number, mathit, pdigit, ptok. kp.
Qed.
Lemma k_binom : keeps (binom rec). Proof. unfold binom, ptok. kp. Qed.
Lemma k_rows : keeps (rows rec). Proof. unfold rows, row, ptok. kp. Qed.
Lemma k_matrix : keeps (matrix rec). Proof. pose proof k_rows. unfold matrix, ptok. kp. Qed.
Lemma k_det : keeps (det rec). Proof. pose proof k_rows. unfold det, ptok. kp. Qed.
Lemma k_scripts : keeps (scripts rec). Proof. pose proof k_subexpr. pose proof k_supexpr. unfold scripts. kp. Qed.
Lemma k_sub_tree s : keeps (sub_tree s). Proof. unfold sub_tree. kp. Qed.
Lemma k_in_parens {A} (p : P A) : keeps p -> keeps (in_parens p). Proof. intro H. unfold in_parens, ptok. kp. Qed.
Lemma k_func_single : keeps (func_single rec).
Proof.
  unfold func_single. apply k_bind; [apply k_func_name; [reflexivity|apply incl_appl, incl_refl]|]. intro n. pose proof k_scripts. pose proof k_sub_tree.
  apply k_bind; [assumption|]. intro sp. apply k_bind; [auto|]. intro s. pose proof (k_in_parens _ He). kp.
Qed.
Lemma k_func_multi : keeps (func_multi rec).
Proof.
  unfold func_multi. apply k_bind; [apply k_func_name; [reflexivity|apply incl_appr, incl_refl]|]. intro n. pose proof k_scripts.
  pose proof (k_in_parens _ (k_text _ k_commas)). kp.
Qed.
Lemma k_func_apply : keeps (func_apply rec).
Proof. pose proof k_name_part. pose proof k_subexpr. pose proof k_supexpr. pose proof k_commas. unfold func_apply, apply_args, func_common_args, ptok. kp. Qed.
Lemma k_func_int : keeps (func_int rec).
Proof. pose proof k_subexpr. pose proof k_supexpr. pose proof k_sub_tree as S. pose proof k_frac. unfold func_int, int_limits, empty_script, ptok. kp; apply S. Qed.
Lemma k_func_sqrt : keeps (func_sqrt rec). Proof. unfold func_sqrt, pdigit, ptok. kp. Qed.
Lemma k_func_sum : keeps (func_sum rec). Proof. pose proof k_supexpr. unfold func_sum, subeq, equality, ptok. kp. Qed.
Lemma k_func_lim : keeps (func_lim rec). Proof. unfold func_lim, ptok. kp. Qed.
Lemma k_func_e : keeps (func_e rec). Proof. pose proof k_supexpr. unfold func_e, ptok. kp. Qed.
Lemma k_comp b : keeps (comp rec b).
Proof.
  unfold comp, func. pose proof k_func_single. pose proof k_func_multi. pose proof k_func_apply. pose proof k_func_int. pose proof k_func_sqrt.
  pose proof k_func_sum. pose proof k_func_lim. pose proof k_func_e. pose proof k_atom. pose proof k_binom. pose proof k_matrix. pose proof k_det.
  repeat (apply k_alt; [first [apply k_brackets; reflexivity|progress kp|destruct b; kp]|]). kp.
Qed.
Lemma k_level : keeps (r_expr (level rec)) /\ keeps (r_mp (level rec)) /\ keeps (r_mp_nofunc (level rec)) /\ keeps (r_atom (level rec)).
Proof.
  pose proof k_atom as At. pose proof k_subexpr.
  assert (Ex : forall b, keeps (exp rec b)) by (intro b; pose proof (k_comp b); unfold exp, exp_op, ptok; kp).
  assert (Po : forall b, keeps (postfix rec b)).
  { intro b. pose proof (Ex b). unfold postfix, postfix_op, eval_at, at_part, equality, ptok. kp. }
  pose proof (Po true). pose proof (Po false).
  assert (Un : keeps (unary rec)) by (unfold unary; kp). assert (Uf : keeps (unary_nofunc rec)) by (unfold unary_nofunc; kp).
  assert (Mp : keeps (mp rec)) by (unfold mp, chain, mul_ops; kp). assert (Mf : keeps (mp_nofunc rec)) by (unfold mp_nofunc, chain, mul_ops; kp).
  assert (Ad : keeps (additive rec)) by (unfold additive, chain; kp).
  unfold level. cbn [r_expr r_mp r_mp_nofunc r_atom]. split; [exact Ad|]. split; [exact Mp|]. split; [exact Mf|exact At].
Qed.
End Rules.
Lemma k_rules n : keeps (r_expr (rules_upto n)) /\ keeps (r_mp (rules_upto n)) /\ keeps (r_mp_nofunc (rules_upto n)) /\ keeps (r_atom (rules_upto n)).
Proof.
  induction n as [|n (A & B & C & D)]; [split; [|split; [|split]]; exact k_unk|].
  change (rules_upto (S n)) with (level (rules_upto n)). exact (k_level _ A B C D).
Qed.
Lemma k_relation e : keeps e -> keeps (relation e). Proof. intro. unfold relation, rel_ops. kp. Qed.
Lemma k_math e : keeps e -> keeps (math e).
Proof.
  intro H. pose proof (k_relation e H) as R. unfold math. apply k_alt; [apply k_map, R|]. apply k_map. unfold relation_list. apply k_alts.
  assert (C : keeps (relation_list_content e)) by (unfold relation_list_content, relations, ptok; kp).
  unfold list_pairs. cbn [map fst snd].
  repeat (apply Forall_cons; [apply k_bind; [apply k_toks; reflexivity|]; intros _; apply k_bind; [exact C|]; intro l; apply k_bind; [apply k_toks; reflexivity|]; intros _; apply k_ret|]).
  apply Forall_nil.
Qed.
Theorem parse_guarded ts t : parse ts = Found t -> guarded ts.
Proof.
  intro H. destruct (k_rules (S (List.length ts))) as (E & _). destruct (k_math _ E _ _ _ H) as (a & c & r & -> & Q & X).
  destruct r; [rewrite app_nil_r; exact Q|discriminate X].
Qed.
Theorem names_guarded ts t a n b : parse ts = Found t -> ts = a ++ n :: b -> In (kind n) (single_names ++ multi_names) ->
  exists a' o l r b', a = a' ++ [o; l] /\ b = r :: b' /\ kind o = K_CMD_OPERATORNAME /\ kind l = K_L_BRACE /\ kind r = K_R_BRACE.
Proof.
  intros H E I. apply (guarded_at ts (parse_guarded ts t H) a n b E). unfold is_name, mem. apply existsb_exists. exists (kind n). split; [exact I|apply N.eqb_refl].
Qed.
