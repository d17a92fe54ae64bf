(** Written sequences: texts of expressions between commas, with or without brackets around them. *)
From Coq Require Import String List NArith ZArith Bool Lia Arith.
From Verif Require Import UnicodeTables PyStr PyStrTheory NumTheory Regex RegexTheory Float64 Constants Normalize NormTheory NormNum Monad Split SplitTheory NormPct NormAlg
  L2SValue Arith ArithLex Automaton FloatText LatexForm Answer.
Import ListNotations.
Local Open Scope N_scope.

(** ** The texts *)
(** [gap]: the spaces after commas and commands *)
Definition items (gap : pystr) (l : list arith) : pystr := join (44 :: gap) (map (body gap) l).
(** Between brackets, or bare *)
Definition around (k : option kind) (s : pystr) : pystr := match k with Some k => wrap k s | None => s end.
Definition sequence (k : option kind) (gap : pystr) (l : list arith) : pystr := around k (items gap l).
Definition roundish (k : option kind) : Prop := k <> Some KSet.

(** ** The automaton of LatexForm.v, with commas; [None] is the place after a comma *)
Definition turn (q : option place) (c : N) : option (option place) :=
  match q with
  | None => if c =? 32 then Some (Some Gap) else option_map Some (operand all_letters c)
  | Some q =>
    if c =? 44 then (if has place place_eqb q end_places then Some None else None)
    else match q with
         | Fresh => if c =? 91 then Some (Some Fresh) else option_map Some (move Fresh c)
         | _ => option_map Some (move q c)
         end
  end.
Definition spot_eqb (p q : option place) : bool :=
  match p, q with Some p, Some q => place_eqb p q | None, None => true | _, _ => false end.
Lemma spot_eqb_ok p q : spot_eqb p q = true <-> p = q.
Proof.
  destruct p as [p|], q as [q|]; cbn [spot_eqb]; try (split; congruence). rewrite place_eqb_ok. split; congruence.
Qed.
Definition spots : list (option place) := None :: map Some places.
Definition seq_alphabet : pystr := 44 :: text_alphabet.
Definition pass : option place -> pystr -> option (option place) := run (option place) seq_alphabet turn.
Lemma pass_app q s t : pass q (s ++ t) = match pass q s with Some q' => pass q' t | None => None end.
Proof. apply run_app. Qed.
Lemma spots_closed : closed_states (option place) spot_eqb spots seq_alphabet turn = true.
Proof. vm_compute. reflexivity. Qed.
Lemma seq_undisturbed : undisturbed (option place) spot_eqb spots seq_alphabet turn = true.
Proof. vm_compute. reflexivity. Qed.
Lemma seq_no_words : forallb (dead (option place) spot_eqb spots seq_alphabet turn) [rs "matrix"; rs "\cup"; rs "\cap"] = true.
Proof. vm_compute. reflexivity. Qed.
