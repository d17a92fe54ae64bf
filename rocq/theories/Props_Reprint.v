(** C119: how results are printed *)
From Coq Require Import String List NArith ZArith QArith Qcanon Bool Lia.
From Verif Require Import PyStr Monad L2S L2STheory L2SState DemoL2S Reprint Props_Grammar.
Import ListNotations.
Local Close Scope Q_scope.
Local Open Scope N_scope.
Ltac vm := vm_compute; reflexivity.

(** ** C119 *)
Theorem C119_words style ps : In style fracs -> well ps -> relatex (92 :: style) (text ps) = text (reprint style ps).
Proof. exact (relatex_pieces style ps). Qed.
Print Assumptions C119_words.
Theorem C119_latex2latex V (O : LSympy V) h n s r w ps st' : latex2sympy O n s [] (after O h fresh) = (Ret r, st') ->
  match r with LL _ | LTD _ => w = r | _ => o_simplified _ O r (g_variances st') = Ret w end ->
  o_latex _ O w = Ret (text ps) -> well ps ->
  exists style, kind st' style /\ latex2latex O n s (after O h fresh) = (Ret (text (reprint style ps)), st').
Proof. exact (latex2latex_prints O h n s r w ps st'). Qed.
Print Assumptions C119_latex2latex.
(* a command that only begins with a corrected one is cut *)
Theorem C119_other_commands_kept_refuted : exists n, forallb is_letter n = true /\ ~ In n corrected /\ relatex (u "\frac") (92 :: n) <> 92 :: n.
Proof. exact longer_cut. Qed.
Print Assumptions C119_other_commands_kept_refuted.
Definition chars (s : string) : list piece := map Chr (u s).
Definition a_matrix : list piece :=
  [Cmd (u "left"); Chr 91; Begin (u "matrix"); Cmd (u "frac")] ++ chars "{1}{2} & " ++ [Cmd (u "log")] ++ chars "{" ++ [Cmd (u "left")] ++ chars "(x " ++ [Cmd (u "right")] ++ chars ")}" ++
  [Esc 92] ++ chars "3 & " ++ [Cmd (u "pi"); End (u "matrix"); Cmd (u "right"); Chr 93].
Example C119_ex : In (u "dfrac") fracs /\ well a_matrix /\
  text a_matrix = u "\left[\begin{matrix}\frac{1}{2} & \log{\left(x \right)}\\3 & \pi\end{matrix}\right]" /\
  relatex (u "\dfrac") (text a_matrix) = u "\begin{bmatrix}\dfrac{1}{2} & \ln{(x)}\\3 & \pi\end{bmatrix}".
Proof.
  split; [cbn; tauto|]. split; [|split; vm].
  assert (N : forall n, n <> [] /\ forallb is_letter n = true /\ n <> u "begin" /\ n <> u "end" /\ existsb (fun o => starts_with o n && negb (str_eqb n o)) corrected = false -> piece_ok (Cmd n)).
  { intros n (H1 & H2 & H3 & H4 & H5). split; [exact H1|]. split; [exact H2|]. split; [exact H3|]. split; [exact H4|]. intros o Ho Hs. destruct (str_eqb n o) eqn:E; [apply str_eqb_iff; exact E|].
    assert (B : existsb (fun o => starts_with o n && negb (str_eqb n o)) corrected = true) by (apply existsb_exists; exists o; split; [exact Ho|]; rewrite Hs, E; reflexivity). congruence. }
  unfold a_matrix. repeat (split; [first [apply N; repeat split; first [discriminate|vm]|vm|discriminate|split; [vm|discriminate]]|split; [first [intros _; vm|discriminate]|]]). exact I.
Qed.
Definition dfrac_before : list (a_call (V := ex)) := [{| c_fuel := 3%nat; c_text := u "\dfrac{3}{4}"; c_values := [] |}].
Example C119_ex2 : exists r w st', latex2sympy OG 3 (u "0.5") [] (after OG dfrac_before fresh) = (Ret r, st') /\
  match r with LL _ | LTD _ => w = r | _ => o_simplified _ OG r (g_variances st') = Ret w end /\ o_latex _ OG w = Ret (text (Cmd (u "frac") :: chars "{1}{2}")) /\
  well (Cmd (u "frac") :: chars "{1}{2}") /\ fst (latex2latex OG 3 (u "0.5") (after OG dfrac_before fresh)) = Ret (u "\dfrac{1}{2}").
Proof.
  eexists _, _, _. split; [vm|]. split; [vm|]. split; [vm|]. split; [|vm]. split.
  - apply style_good. left. reflexivity.
  - split; [intros _; vm|]. repeat (split; [discriminate|split; [discriminate|]]). exact I.
Qed.
