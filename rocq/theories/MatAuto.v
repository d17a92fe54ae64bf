(** Written matrices: texts of expressions between ampersands and double backslashes, in an environment. *)
From Coq Require Import String List NArith ZArith Bool Lia Arith.
From Verif Require Import UnicodeTables PyStr PyStrTheory NumTheory Regex RegexTheory Float64 Constants Normalize NormTheory NormNum Monad Split SplitTheory NormPct NormAlg
  L2SValue Arith ArithLex Automaton FloatText LatexForm Answer.
Import ListNotations.
Local Open Scope N_scope.

(** ** The texts *)
(** [sp]: the spaces around separators; [gap]: the spaces after commands *)
Definition row_text (sp gap : pystr) (r : list arith) : pystr := join (sp ++ [38] ++ sp) (map (body gap) r).
Definition rows_text (sp gap : pystr) (rows : list (list arith)) : pystr := join (sp ++ u "\\" ++ sp) (map (row_text sp gap) rows).
Definition matrix_text (e1 e2 sp gap : pystr) (rows : list (list arith)) : pystr := matrix_env e1 e2 (sp ++ rows_text sp gap rows ++ sp).
(** matrix, pmatrix, bmatrix, Bmatrix, vmatrix, Vmatrix *)
Definition delimiters : list pystr := map u [""; "p"; "b"; "B"; "v"; "V"]%string.

(** ** The automaton of LatexForm.v, with separators and the environment *)
Inductive mspot :=
| MAt (q : place)
| MDue                               (* an operand is due, after a separator *)
| MClose                             (* after an operand and a space *)
| MBack                              (* after that, a backslash *)
| MWord (w : pystr) (phase : nat)    (* [w] is due *)
| MName (opening : bool)             (* the name of the environment is due *)
| MOver.
Definition mspot_eqb (p q : mspot) : bool :=
  match p, q with
  | MAt p, MAt q => place_eqb p q
  | MDue, MDue | MClose, MClose | MBack, MBack | MOver, MOver => true
  | MWord v n, MWord w m => str_eqb v w && Nat.eqb n m
  | MName a, MName b => Bool.eqb a b
  | _, _ => false
  end.
Lemma mspot_eqb_ok p q : mspot_eqb p q = true <-> p = q.
Proof.
  destruct p, q; cbn [mspot_eqb]; try (split; congruence).
  - rewrite place_eqb_ok. split; congruence.
  - rewrite andb_true_iff, str_eqb_eq, Nat.eqb_eq. split; [intros [-> ->]; reflexivity|intros [= -> ->]; auto].
  - rewrite Bool.eqb_true_iff. split; congruence.
Qed.
Definition word_done (phase : nat) : mspot := match phase with 0 => MName true | 1 => MDue | 2 => MName false | _ => MOver end%nat.
Definition word (w : pystr) (phase : nat) : mspot := match w with [] => word_done phase | _ => MWord w phase end.
Definition is_end (q : place) : bool := has place place_eqb q end_places.
Definition mturn (p : mspot) (c : N) : option mspot :=
  match p with
  | MAt q =>
    if c =? 38 then (if is_end q then Some MDue else None)
    else if (c =? 32) && is_end q then Some MClose
    else match q with
         | Cmd [] _ => if c =? 92 then Some MDue else option_map MAt (move q c)
         | Cmd [101] _ => if c =? 110 then Some (MWord (u "d{") 2) else option_map MAt (move q c)
         | _ => option_map MAt (move q c)
         end
  | MDue => if c =? 32 then Some (MAt Gap) else option_map MAt (operand all_letters c)
  | MClose => if c =? 38 then Some MDue else if c =? 92 then Some MBack else None
  | MBack => if c =? 92 then Some MDue else if c =? 101 then Some (MWord (u "nd{") 2) else None
  | MWord (d :: w) n => if c =? d then Some (word w n) else None
  | MWord [] _ => None
  | MName b => let n := if b then 1%nat else 3%nat in
    if c =? 109 then Some (MWord (u "atrix}") n) else if mem_cp (u "pbBvV") c then Some (MWord (u "matrix}") n) else None
  | MOver => None
  end.
Fixpoint suffixes (s : pystr) : list pystr := match s with [] => [] | c :: s' => s :: suffixes s' end.
Definition mspots : list mspot :=
  [MDue; MClose; MBack; MName true; MName false; MOver] ++ map MAt places ++
  map (fun w => MWord w 0) (suffixes (u "\begin{")) ++ map (fun w => MWord w 1) (suffixes (u "matrix}")) ++
  map (fun w => MWord w 2) (suffixes (u "nd{")) ++ map (fun w => MWord w 3) (suffixes (u "matrix}")).
Definition mat_alphabet : pystr := 38 :: text_alphabet.
Definition walk : mspot -> pystr -> option mspot := run mspot mat_alphabet mturn.
Lemma walk_app q s t : walk q (s ++ t) = match walk q s with Some q' => walk q' t | None => None end.
Proof. apply run_app. Qed.
Lemma mspots_closed : closed_states mspot mspot_eqb mspots mat_alphabet mturn = true.
Proof. vm_compute. reflexivity. Qed.
Lemma mat_left_alone : left_alone mspot mspot_eqb mspots mat_alphabet mturn = true.
Proof. vm_compute. reflexivity. Qed.
Lemma mat_no_cases : dead mspot mspot_eqb mspots mat_alphabet mturn (rs "{cases}") = true.
Proof. vm_compute. reflexivity. Qed.
Lemma mat_no_array : dead mspot mspot_eqb mspots mat_alphabet mturn (rs "{array}") = true.
Proof. vm_compute. reflexivity. Qed.
Lemma mat_no_begin : dead mspot mspot_eqb mspots mat_alphabet mturn (rs "\\begin") = true.
Proof. vm_compute. reflexivity. Qed.
