(** Properties C27-C31 and C56-C58 of string_normalize: units, shape, totality, wrappers, and findings. *)
From Coq Require Import String List NArith ZArith Bool Lia.
From Verif Require Import PyStr PyStrTheory Regex RegexTheory Constants Normalize NormShape NormClean NormUnits.
From Verif Require Import NumTheory NormTheory NormMixed NormMerge Monad Split Eval Demo.
Import ListNotations.
Local Open Scope N_scope.
Local Ltac no_infix := let H := fresh in intro H; apply infix_contains in H; vm_compute in H; discriminate H.
Local Ltac plain := split; [no_infix|split; [no_infix|left; no_infix]].

(** ** C27 *)
Theorem C27_units_dropped ints z unit s : (- 2 ^ 53 <= z <= 2 ^ 53)%Z -> unit_suffix unit s -> (100 <= Z.abs z)%Z \/ ~ In unit meridiems ->
  string_normalize ints (dec_Z z ++ s) = NStr (ints (dec_Z z)).
Proof. exact (unit_dropped ints z unit s). Qed.
Print Assumptions C27_units_dropped.
(** So that answers in different units are equivalent. *)
Theorem C27_units_conflated W n z x1 x2 s1 s2 : (- 2 ^ 53 <= z <= 2 ^ 53)%Z -> unit_suffix x1 s1 -> unit_suffix x2 s2 ->
  (100 <= Z.abs z)%Z \/ ~ In x1 meridiems /\ ~ In x2 meridiems ->
  forall st, is_equiv W (S n) (Some (dec_Z z ++ s1)) (Some (dec_Z z ++ s2)) st = (Ret true, st).
Proof. exact (units_conflated W n z x1 x2 s1 s2). Qed.
Print Assumptions C27_units_conflated.
Local Ltac member := cbn; repeat (first [left; reflexivity|right]).
Local Ltac not_member := cbn; intuition discriminate.
Local Ltac in_table := match goal with |- In ?x ?l => assert (existsb (str_eqb x) l = true) as HH by (vm_compute; reflexivity);
  apply existsb_exists in HH; destruct HH as (y & Hy & E); apply str_eqb_eq in E; subst y; exact Hy end.
Example C27_ex1 : string_normalize (fun x => x) (u "-12\text{ meters}^2") = NStr (u "-12").
Proof.
  apply (C27_units_dropped (fun x => x) (-12) (u "meter") (u "\text{ meters}^2")); [lia| |right; not_member].
  apply (us_text (u "meter") (u "text") [32] (u "s") (u "^2")); in_table.
Qed.
Example C27_ex2 : string_normalize (fun x => x) (u "100 pm") = NStr (u "100").
Proof. apply (C27_units_dropped (fun x => x) 100 (u "pm") (u " pm")); [lia| |left; lia]. apply (us_bare (u "pm") [32] [] []); in_table. Qed.
Example C27_ex3 st : is_equiv counting_world 1 (Some (u "5 kg")) (Some (u "5\mbox{cm}")) st = (Ret true, st).
Proof.
  apply (C27_units_conflated counting_world 0 5 (u "kg") (u "cm") (u " kg") (u "\mbox{cm}")); [lia| | |right; split; not_member].
  - apply (us_bare (u "kg") [32] [] []); in_table.
  - apply (us_text (u "cm") (u "mbox") [] [] []); in_table.
Qed.

(** ** C28 *)
(** [$], [%], BEL, BS, TAB, FF, CR, the space and A-Z never occur in a computed string. *)
Theorem C28_clean ints s out : (forall x c, unwanted c -> In c (ints x) -> In c x) -> string_normalize ints s = NStr out ->
  (forall t, unwraps s t -> ~ empty_condition t) -> forall c, unwanted c -> ~ In c out.
Proof. exact (fun H => normalize_clean ints H s out). Qed.
Print Assumptions C28_clean.
(** The characters in question *)
Theorem C28_unwanted c : unwanted c <-> In c [36; 37; 7; 8; 9; 12; 13; 32] \/ 65 <= c <= 90.
Proof. exact (unwanted_spec c). Qed.
Print Assumptions C28_unwanted.
Example C28_ex : forall c, unwanted c -> ~ In c (u "(a,b)").
Proof.
  apply (C28_clean (fun x => x) (u "$ (A , B)$")); [auto|vm_compute; reflexivity|].
  intros t H. inversion H as [|? t' ? H1]; subst.
  - intros (a & nl & _ & E). vm_compute in E. discriminate.
  - destruct H1 as [(c & w1 & w2 & nl & _ & _ & _ & _ & E)|[(a & nl & _ & E) _]]; vm_compute in E; discriminate.
Qed.

(** ** C29 *)
Theorem C29_results ints s :
  (exists t, unwraps s t /\ ((exists out, string_normalize ints s = NStr out) \/ (exists x y, string_normalize ints s = NSet [x; y])) /\
     string_normalize ints s = norm_tail ints (prepared t)) \/
  (exists t, unwraps s t /\ empty_condition t /\ string_normalize ints s = NStr t).
Proof. exact (normalize_results ints s). Qed.
Print Assumptions C29_results.
(** The recursion of the source holds without any fuel. *)
Theorem C29_recursion ints s : string_normalize ints s =
  match re_search text_wrap_re (prepared s) with
  | Some st => string_normalize ints (grp 2 st)
  | None =>
    match re_search set_builder_re (prepared s) with
    | Some st => match grp 2 st with [] => NStr s | cond => string_normalize ints cond end
    | None => norm_tail ints (prepared s)
    end
  end.
Proof. exact (normalize_step ints s). Qed.
Print Assumptions C29_recursion.
(** Every unwrapping step removes an opening brace, so the recursion is as deep as there are braces at most. *)
Theorem C29_terminates s t : unwrap1 s t -> (count 123 t < count 123 s)%nat.
Proof. exact (count_unwrap s t). Qed.
Print Assumptions C29_terminates.
(** Any recursion limit above the number of braces gives the same result. *)
Theorem C29_fuel ints n s : (count 123 s <= n)%nat -> norm_fuel ints n s = string_normalize ints s.
Proof. exact (normalize_fuel ints n s). Qed.
Print Assumptions C29_fuel.
Example C29_ex1 : string_normalize (fun x => x) (u "\{ X | \}") = string_normalize (fun x => x) (u "\text{\{ X | \}}").
Proof. vm_compute. reflexivity. Qed.
Example C29_ex2 : unwrap1 (u " \text{$X$}") (u "$X$") /\ (count 123 (u "$X$") < count 123 (u " \text{$X$}"))%nat.
Proof.
  assert (H : unwrap1 (u " \text{$X$}") (u "$X$")).
  { left. exists (u "text"), [], [], []. repeat split; cbn; auto; discriminate. }
  split; [exact H|apply (C29_terminates _ _ H)].
Qed.
(** The fallback, with an empty condition *)
Example C29_ex3 : empty_condition (u "\{ X |\}") /\ string_normalize (fun x => x) (u "\{ X |\}") = NStr (u "\{ X |\}").
Proof. split; [exists (u " X "), []; split; auto; reflexivity|vm_compute; reflexivity]. Qed.
Example C29_ex4 : norm_fuel (fun x => x) 1 (u "\mbox{25\%}") = NSet [u "0.25"; u "25.0"].
Proof. rewrite C29_fuel; [vm_compute; reflexivity|apply le_n]. Qed.

(** ** C30 *)
Theorem C30_not_idempotent_refuted : exists s, forall ints, exists a b,
  string_normalize ints s = NStr a /\ string_normalize ints a = NStr b /\ a <> b.
Proof. exact not_idempotent. Qed.
Print Assumptions C30_not_idempotent_refuted.
(** Even with surroundings that only look like mathematics delimiters: *)
Example C30_ex : string_normalize (fun x => x) (u "$\text{X=3}$") = NStr (u "\text{x=3}") /\
  string_normalize (fun x => x) (u "\text{x=3}") = NStr (u "x=3").
Proof. split; vm_compute; reflexivity. Qed.

(** ** C31 *)
Theorem C31_text ints cmd s : In cmd [u "text"; u "mbox"] -> s <> [] -> (match s with c :: _ => is_space c = false | [] => True end) ->
  plain_text (wrap_text cmd s) -> string_normalize ints (wrap_text cmd s) = string_normalize ints s.
Proof. exact (text_transparent ints cmd s). Qed.
Print Assumptions C31_text.
Theorem C31_set_builder ints a s : s <> [] -> ~ In 124 s -> plain_text (build_set a s) ->
  string_normalize ints (build_set a s) = string_normalize ints s.
Proof. exact (set_transparent ints a s). Qed.
Print Assumptions C31_set_builder.
Example C31_ex1 : string_normalize (fun x => x) (u "\text{3\frac{1}{2} }") = string_normalize (fun x => x) (u "3\frac{1}{2} ").
Proof. apply (C31_text (fun x => x) (u "text") (u "3\frac{1}{2} ")); [left; reflexivity|discriminate|reflexivity|plain]. Qed.
Example C31_ex2 : string_normalize (fun x => x) (u "\{x | x > 3\}") = string_normalize (fun x => x) (u " x > 3").
Proof. apply (C31_set_builder (fun x => x) (u "x ") (u " x > 3")); [discriminate|cbn; intuition discriminate|plain]. Qed.

(** ** C56 *)
Theorem C56_groups_merged ints z neg A B k : (- 2 ^ 53 <= z <= 2 ^ 53)%Z -> Forall ascii_digit A -> Forall ascii_digit B -> A <> [] -> B <> [] -> k <> O ->
  dec_Z z = (sign neg ++ A ++ B)%list -> string_normalize ints (sign neg ++ A ++ spaces k ++ B) = NStr (ints (dec_Z z)).
Proof. exact (gap_normalize ints z neg A B k). Qed.
Print Assumptions C56_groups_merged.
Theorem C56_groups_conflated W n z neg A B A' B' k k' : (- 2 ^ 53 <= z <= 2 ^ 53)%Z ->
  Forall ascii_digit (A ++ B) -> A <> [] -> B <> [] -> A' <> [] -> B' <> [] -> k <> O -> k' <> O ->
  dec_Z z = (sign neg ++ A ++ B)%list -> (A ++ B = A' ++ B')%list ->
  forall st, is_equiv W (S n) (Some (sign neg ++ A ++ spaces k ++ B)%list) (Some (sign neg ++ A' ++ spaces k' ++ B')%list) st = (Ret true, st).
Proof. exact (groups_conflated W n z neg A B A' B' k k'). Qed.
Print Assumptions C56_groups_conflated.
Local Ltac digs := match goal with |- Forall ?P ?l => let l' := eval vm_compute in l in change (Forall P l') end;
  repeat (apply Forall_cons; [unfold ascii_digit; lia|]); apply Forall_nil.
Example C56_ex1 : string_normalize (fun x => x) (u "-4  07") = NStr (u "-407").
Proof. apply (C56_groups_merged (fun x => x) (-407) true (u "4") (u "07") 2); [lia|digs|digs|discriminate|discriminate|discriminate|reflexivity]. Qed.
Example C56_ex2 st : is_equiv counting_world 1 (Some (u "1 23")) (Some (u "12 3")) st = (Ret true, st).
Proof.
  apply (C56_groups_conflated counting_world 0 123 false (u "1") (u "23") (u "12") (u "3") 1 1);
    [lia|digs|discriminate|discriminate|discriminate|discriminate|discriminate|discriminate|reflexivity|reflexivity].
Qed.

(** ** C57 *)
Theorem C57_letter_before_infty W n c d : In c (u "abcdefghijklmnopqrstuvwxyzABCDEFGHIJKLMNOPQRSTUVWXYZ") -> In d (u "abcdefghijklmnopqrstuvwxyzABCDEFGHIJKLMNOPQRSTUVWXYZ") ->
  forall st, is_equiv W (S n) (Some (c :: u "\infty")) (Some (d :: u "\infty")) st = (Ret true, st).
Proof. exact (infty_conflated W n c d). Qed.
Print Assumptions C57_letter_before_infty.
Example C57_ex st : is_equiv counting_world 1 (Some (u "x\infty")) (Some (u "Y\infty")) st = (Ret true, st).
Proof. apply (C57_letter_before_infty counting_world 0 120 89); vm_compute; tauto. Qed.

(** ** C58 *)
Theorem C58_inside_words_refuted : exists a b : pystr, lower a <> lower b /\ forall W n st, is_equiv W (S n) (Some a) (Some b) st = (Ret true, st).
Proof. exact words_conflated. Qed.
Print Assumptions C58_inside_words_refuted.
Example C58_ex : string_normalize (fun x => x) (u "negative infinity") = NStr (u "negativefinity").
Proof. vm_compute. reflexivity. Qed.
