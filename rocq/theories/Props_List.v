(** Property C135: any number of whole numbers separated by commas, "and" or "or" (/repo/math_evaluation/core/latex_normalize.py:307-309). *)
From Coq Require Import String List NArith ZArith Bool Lia.
From Verif Require Import PyStr PyStrTheory NumTheory Spec Arith Normalize NormTheory SplitTheory NormOr NormList Props_Or Monad MonadTheory Eval EvalTheory EvalTheory2 Demo.
Import ListNotations.
Local Open Scope N_scope.
Local Ltac vm := vm_compute; reflexivity.

(** ** C135 *)
Theorem C135_plain ints A l : whole A -> wholes l -> l <> [] -> ~ has_thousands (A ++ listed bare l) ->
  string_normalize ints (A ++ listed sep_text l) = NStr (A ++ listed bare l).
Proof. exact (list_plain ints A l). Qed.
Print Assumptions C135_plain.
Theorem C135_accepted W n A l l' st : whole A -> wholes l -> l <> [] -> map snd l = map snd l' ->
  is_equiv W (S n) (Some (A ++ listed sep_text l)) (Some (A ++ listed sep_text l')) st = (Ret true, st).
Proof. exact (list_accepted W n A l l' st). Qed.
Print Assumptions C135_accepted.
(** Against any other answer, the separators do not matter *)
Theorem C135_verdict W n A l l' b st : whole A -> wholes l -> l <> [] -> map snd l = map snd l' ->
  ~ equal_up_to_padding is_space (A ++ listed sep_text l) b -> ~ equal_up_to_padding is_space (A ++ listed sep_text l') b ->
  is_equiv W (S n) (Some (A ++ listed sep_text l)) (Some b) st = is_equiv W (S n) (Some (A ++ listed sep_text l')) (Some b) st.
Proof. exact (list_verdict W n A l l' b st). Qed.
Print Assumptions C135_verdict.
(** Finding: groups of three digits after at most three are read as one number, whatever the words between them *)
Theorem C135_merged W n z A l st : (- 2 ^ 53 <= z <= 2 ^ 53)%Z -> Forall ascii_digit A -> (1 <= length A <= 3)%nat -> Forall three_digits l -> l <> [] ->
  dec_Z z = A ++ concat (map snd l) -> int_str W (A ++ listed bare l) = int_str W (dec_Z z) ->
  is_equiv W (S n) (Some (A ++ listed sep_text l)) (Some (dec_Z z)) st = (Ret true, st).
Proof. exact (list_merged W n z A l st). Qed.
Print Assumptions C135_merged.
Local Ltac whole_tac b d := exists b, d; split; [vm|split; [repeat constructor; vm_compute; discriminate|discriminate]].
Definition three : list (sep * pystr) := [(Comma 1, u "-2"); (Word true false, u "30")].
Lemma three_whole : wholes three.
Proof. repeat constructor; cbn [snd]; [whole_tac true (u "2")|whole_tac false (u "30")]. Qed.
Example C135_ex : string_normalize (fun x => x) (u "1, -2, and 30") = NStr (u "1,-2,30").
Proof.
  apply (C135_plain (fun x => x) (u "1") three).
  - whole_tac false (u "1").
  - exact three_whole.
  - discriminate.
  - intros (a & d1 & s & d2 & d3 & d4 & b & E & Hs & Hd). change (49 :: 44 :: 45 :: 50 :: 44 :: 51 :: [48] = a ++ d1 :: 44 :: s ++ [d2; d3; d4] ++ b) in E.
    assert (D2 : is_digit d2 = true) by (rewrite Forall_forall in Hd; apply Hd; right; left; reflexivity). clear Hd.
    destruct Hs as [-> | ->]; do 8 (destruct a as [|? a]; [cbn [app] in E; try discriminate E; injection E; intros; subst; vm_compute in D2; discriminate D2|]); discriminate E.
Qed.
Example C135_accepted_ex : is_equiv (table_world []) 3 (Some (u "1, -2, and 30")) (Some (u "1 or -2,   30")) tt = (Ret true, tt).
Proof. apply (C135_accepted (table_world []) 2 (u "1") three [(Word false true, u "-2"); (Comma 3, u "30")] tt ltac:(whole_tac false (u "1")) three_whole ltac:(discriminate) eq_refl). Qed.
Example C135_verdict_ex : let W := table_world [(u "1", u "1"); (u "-2", u "-2"); (u "30", u "30")] in is_equiv W 3 (Some (u "1, -2, and 30")) (Some (u "30,1,-2")) tt = (Ret true, tt).
Proof.
  refine (eq_trans (C135_verdict (table_world [(u "1", u "1"); (u "-2", u "-2"); (u "30", u "30")]) 2 (u "1") three [(Comma 0, u "-2"); (Comma 0, u "30")] (u "30,1,-2") tt ltac:(whole_tac false (u "1")) three_whole ltac:(discriminate) eq_refl
    ltac:(rewrite <- padding_iff; vm_compute; discriminate) ltac:(rewrite <- padding_iff; vm_compute; discriminate)) _). vm.
Qed.
Example C135_merged_ex : is_equiv grouping_world 3 (Some (u "2, 300 or 417")) (Some (u "2300417")) tt = (Ret true, tt).
Proof.
  apply (C135_merged grouping_world 2 2300417 (u "2") [(Comma 1, u "300"); (Word false true, u "417")] tt); [lia|repeat constructor; vm_compute; discriminate|vm_compute; lia| |discriminate|vm|vm].
  repeat constructor; vm_compute; discriminate.
Qed.
