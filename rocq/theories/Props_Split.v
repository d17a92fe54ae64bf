(** Properties C15-C19 of split_tuple, split_matrix and thousands separators. *)
From Coq Require Import String List NArith ZArith Bool Lia.
From Verif Require Import PyStr PyStrTheory NumTheory Regex RegexTheory Normalize Monad Split SplitTheory.
Import ListNotations.
Local Open Scope N_scope.
Local Ltac vm := vm_compute; reflexivity.

(** ** C15 *)
Theorem C15_split_tuple_raises s expected e :
  split_tuple s expected = Raise e <-> e = AssertionError /\ balance s <> 0%Z.
Proof. exact (split_tuple_raises s expected e). Qed.
Print Assumptions C15_split_tuple_raises.
Example C15_ex : split_tuple (u "(1,{x)") None = Raise AssertionError.
Proof. apply C15_split_tuple_raises. split; [reflexivity|]. vm_compute. discriminate. Qed.
(** Nesting and bracket kinds are not checked. *)
Theorem C15_nesting_unchecked : exists s r,
  ~ well_nested s /\ split_tuple s None = Ret r.
Proof. exact nesting_unchecked. Qed.
Print Assumptions C15_nesting_unchecked.

(** ** C16 *)
Theorem C16_bracketed k expected l :
  (2 <= length l)%nat -> Forall well_nested l -> (forall x, In x l -> ~ top_comma x) -> last l [] <> [] ->
  ~ has_thousands (wrap k (join [44] l)) ->
  split_tuple (wrap k (join [44] l)) expected =
    Ret (SSeq (match expected with Some k' => k' | None => k end) (map strip l)).
Proof. exact (split_tuple_wrapped k expected l). Qed.
Print Assumptions C16_bracketed.
Theorem C16_bare expected l :
  (2 <= length l)%nat -> Forall (fun x => balance x = 0%Z) l -> (forall x, In x l -> ~ top_comma x) -> last l [] <> [] ->
  ~ has_thousands (join [44] l) ->
  split_tuple (join [44] l) expected =
    Ret (SSeq (match expected with Some k' => k' | None => KSet end) (map strip l)).
Proof. exact (split_tuple_bare expected l). Qed.
Print Assumptions C16_bare.
(** The side conditions hold of concrete lists. *)
Local Ltac wn := split; [vm|]; intros p q E;
  repeat (destruct p as [|? p]; [vm_compute; discriminate|
    cbn in E; first [discriminate E|injection E as <- E]]).
Local Ltac ntc := intros (p & q & E & B);
  repeat (destruct p as [|? p]; [first [discriminate E|vm_compute in B; discriminate B]|
    cbn in E; first [discriminate E|injection E as <- E]]).
Local Ltac nth := intros (p & d1 & sep & d2 & d3 & d4 & q & E & [-> | ->] & F);
  repeat (destruct p as [|? p]; cbn in E;
    [first [discriminate E|injection E; intros; subst; rewrite !Forall_cons_iff in F; decompose [and] F; discriminate]
    |first [discriminate E|injection E as _ E]]).
Example C16_ex : split_tuple (u "[f(1,2), 3]") None = Ret (SSeq KList [u "f(1,2)"; u "3"]).
Proof.
  apply (C16_bracketed KList None [u "f(1,2)"; u " 3"]).
  - cbn. lia.
  - constructor; [wn|]. constructor; [wn|constructor].
  - intros x [<-|[<-|[]]]; ntc.
  - discriminate.
  - nth.
Qed.

(** ** C17 *)
Theorem C17_outer_brackets s expected r : split_tuple s expected = Ret r ->
  (exists k m, m <> [] /\ enclosed k m (strip_commas s) /\ cut (match expected with Some k' => k' | None => k end) m r) \/
  ((forall k m, m <> [] -> ~ enclosed k m (strip_commas s)) /\
   cut (match expected with Some k' => k' | None => KSet end) (strip_commas s) r).
Proof. exact (split_tuple_cut s expected r). Qed.
Print Assumptions C17_outer_brackets.
(** Brackets that do not match each other stay: the string is the second case. *)
Example C17_ex : exists r, split_tuple (u "(1)+(2)") None = Ret r /\ cut KSet (u "(1)+(2)") r.
Proof.
  eexists. assert (E : split_tuple (u "(1)+(2)") None = Ret (SStr (u "(1)+(2)"))) by vm. split; [exact E|].
  destruct (C17_outer_brackets _ _ _ E) as [(k & m & _ & [He [_ Hw]] & _)|[_ H]].
  - exfalso. assert (Hs : strip_commas (u "(1)+(2)") = u "(1)+(2)") by vm. rewrite Hs in He.
    assert (m = u "1)+(2").
    { destruct k; try discriminate He. change (u "(1)+(2)") with (fst (pair_of KTuple) :: u "1)+(2" ++ [snd (pair_of KTuple)]) in He.
      injection He as He. change [49; 41; 43; 40; 50; 41] with ([49; 41; 43; 40; 50] ++ [41]) in He. apply app_inj_tail in He. destruct He as [He _]. symmetry. exact He. }
    subst m. specialize (Hw (u "1)") (u "+(2") eq_refl). vm_compute in Hw. apply Hw. reflexivity.
  - assert (Hs : strip_commas (u "(1)+(2)") = u "(1)+(2)") by vm. rewrite Hs in H. exact H.
Qed.

(** ** C18 *)
(** Any digit string, grouped from the right, between texts without digits. *)
Theorem C18_round_trip a b s : non_digits a -> non_digits b -> no_comma_first b -> digits s -> s <> [] ->
  strip_commas (a ++ with_commas s ++ b) = a ++ s ++ b.
Proof. exact (strip_with_commas a b s). Qed.
Print Assumptions C18_round_trip.
Theorem C18_natural n : strip_commas (with_commas (dec_N n)) = dec_N n.
Proof. exact (strip_commas_N n). Qed.
Print Assumptions C18_natural.
(** With an optional space after each comma, the commas go and the spaces stay. *)
Theorem C18_spaced a h gs b :
  non_digits a -> head_ok h -> gs <> [] -> Forall group_ok gs -> non_digits b -> no_comma_first b ->
  strip_commas (a ++ h ++ groups_text gs ++ b) = a ++ h ++ groups_plain gs ++ b.
Proof. exact (strip_commas_grouped a h gs b). Qed.
Print Assumptions C18_spaced.
Theorem C18_unchanged s : ~ has_thousands s -> strip_commas s = s.
Proof. exact (strip_commas_id s). Qed.
Print Assumptions C18_unchanged.
(** Finding: every pair of a short number and a three-digit number is one number. *)
Theorem C18_pair_merged k h g : head_ok h -> group_ok ([], g) ->
  split_tuple (wrap k (h ++ 44 :: g)) None = Ret (SStr (h ++ g)).
Proof. exact (merged_pair k h g). Qed.
Print Assumptions C18_pair_merged.
Local Ltac digs := repeat constructor.
Example C18_ex1 : strip_commas (u "$" ++ with_commas (u "1234567") ++ u "!") = u "$1234567!".
Proof. apply (C18_round_trip (u "$") (u "!")); try discriminate; digs; discriminate. Qed.
Example C18_ex2 : with_commas (dec_N 1234567) = u "1,234,567".
Proof. vm. Qed.
Example C18_ex3 : strip_commas (u "12, 345") = u "12 345".
Proof.
  apply (C18_spaced [] (u "12") [(u " ", u "345")] []); try discriminate; digs; try discriminate; cbn; auto; lia.
Qed.
Example C18_ex4 : split_tuple (u "(1,234)") None = Ret (SStr (u "1234")).
Proof. apply (C18_pair_merged KTuple (u "1") (u "234")); digs; cbn; auto; lia. Qed.
Example C18_ex5 : strip_commas (u "(1,23)") = u "(1,23)".
Proof. apply C18_unchanged. nth. Qed.

(** ** C19 *)
Theorem C19_matrix_round_trip e1 e2 rows n : (0 < n)%nat -> env_prefix e1 -> env_prefix e2 ->
  rows <> [] -> Forall (fun row => length row = n) rows -> Forall (Forall plain_cell) rows ->
  split_matrix (matrix_env e1 e2 (table_body rows)) = Ret (table_result rows).
Proof. exact (split_matrix_cells e1 e2 rows n). Qed.
Print Assumptions C19_matrix_round_trip.
Local Ltac cell := split; [cbn; intuition discriminate|]; split;
  [intros (p & q & E); repeat (destruct p as [|? p]; cbn in E; [discriminate E|first [discriminate E|injection E as _ E]])
  |intros y E; repeat (destruct y as [|? y]; cbn in E; [discriminate E|first [discriminate E|injection E as _ E]])].
Example C19_ex : split_matrix (u "\begin{pmatrix}1&\pi\\x_1&0\end{pmatrix}") =
  Ret (MRows [CRow [u "1"; u "\pi"]; CRow [u "x_1"; u "0"]]).
Proof.
  apply (C19_matrix_round_trip (u "p") (u "p") [[u "1"; u "\pi"]; [u "x_1"; u "0"]] 2).
  - lia.
  - right. exists 112. split; [reflexivity|]. lia.
  - right. exists 112. split; [reflexivity|]. lia.
  - discriminate.
  - repeat constructor.
  - repeat (constructor; [repeat (constructor; [cell|]); constructor|]). constructor.
Qed.
