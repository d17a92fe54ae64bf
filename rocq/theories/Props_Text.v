(** Property C124: words in \text are dropped wherever they stand. *)
From Coq Require Import String List NArith ZArith Bool Lia.
From Verif Require Import PyStr PyStrTheory NumTheory Regex RegexTheory Constants Normalize NormClean NormUnits NormText Monad Split Eval EvalTheory Demo.
Import ListNotations.
Local Open Scope N_scope.

(** ** C124 *)
Theorem C124_text_dropped ints z P w b : (- 2 ^ 53 <= z <= 2 ^ 53)%Z -> dec_Z z = P ++ b -> P <> [] -> unheeded w -> Forall ascii_digit b ->
  b <> [] \/ (100 <= Z.abs z)%Z \/ (z < 0)%Z \/ ~ time_word w ->
  string_normalize ints (P ++ in_text w ++ b) = NStr (ints (dec_Z z)).
Proof. exact (text_dropped ints z P w b). Qed.
Print Assumptions C124_text_dropped.
(** A range is accepted for the number with its digits *)
Theorem C124_accepted (W : World) n z P w b st : (- 2 ^ 53 <= z <= 2 ^ 53)%Z -> dec_Z z = P ++ b -> P <> [] -> unheeded w -> Forall ascii_digit b ->
  b <> [] \/ (100 <= Z.abs z)%Z \/ (z < 0)%Z \/ ~ time_word w ->
  is_equiv W (S n) (Some (P ++ in_text w ++ b)) (Some (dec_Z z)) st = (Ret true, st).
Proof. exact (text_accepted W n z P w b st). Qed.
Print Assumptions C124_accepted.
Lemma to_unheeded : unheeded (u " to ").
Proof.
  split; [discriminate|]. split; [repeat (constructor; [unfold word_char; vm_compute; intuition discriminate|]); constructor|].
  split; [|split; vm_compute; discriminate]. intros p Hp H. apply infix_contains in H. destruct Hp as [<-|[<-|[<-|[<-|[<-|[]]]]]]; vm_compute in H; discriminate H.
Qed.
Example C124_ex st : is_equiv counting_world 1 (Some (u "3\text{ to }4")) (Some (u "34")) st = (Ret true, st).
Proof.
  apply (C124_accepted counting_world 0 34 (u "3") (u " to ") (u "4")); [lia|reflexivity|discriminate|exact to_unheeded|repeat constructor; vm_compute; discriminate|left; discriminate].
Qed.
Example C124_ex2 : string_normalize (fun x => x) (u "-7\text{ Zebra crossings}") = NStr (u "-7").
Proof.
  apply (C124_text_dropped (fun x => x) (-7) (u "-7") (u " Zebra crossings") []); [lia|reflexivity|discriminate| |constructor|right; right; left; lia].
  split; [discriminate|]. split; [repeat (constructor; [unfold word_char; vm_compute; intuition discriminate|]); constructor|].
  split; [|split; vm_compute; discriminate]. intros p Hp H. apply infix_contains in H. destruct Hp as [<-|[<-|[<-|[<-|[<-|[]]]]]]; vm_compute in H; discriminate H.
Qed.
