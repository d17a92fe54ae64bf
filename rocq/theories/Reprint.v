(** How results are printed: the corrections applied to sympy's LaTeX *)
From Coq Require Import String List NArith Bool Lia.
From Verif Require Import PyStr PyStrTheory Monad L2S MonadTheory L2STheory L2SState CalcFindings.
Import ListNotations.
Local Open Scope N_scope.

(** * The text of LaTeX as words, independently of the corrections *)
Inductive piece := Cmd (n : pystr) | Esc (c : N) | Begin (e : pystr) | End (e : pystr) | Chr (c : N).
Definition show (p : piece) : pystr :=
  match p with
  | Cmd n => 92 :: n
  | Esc c => [92; c]
  | Begin e => u "\begin{" ++ e ++ u "}"
  | End e => u "\end{" ++ e ++ u "}"
  | Chr c => [c]
  end.
Definition text (ps : list piece) : pystr := concat (map show ps).
Definition is_letter (c : N) : bool := (97 <=? c) && (c <=? 122) || (65 <=? c) && (c <=? 90).
Definition fracs : list pystr := [u "frac"; u "dfrac"; u "tfrac"].
Definition corrected : list pystr := fracs ++ [u "left"; u "right"; u "log"].
(** a command is letters; none is longer than a corrected one and begins with it *)
Definition piece_ok (p : piece) : Prop :=
  match p with
  | Cmd n => n <> [] /\ forallb is_letter n = true /\ n <> u "begin" /\ n <> u "end" /\
             (forall o, In o corrected -> starts_with o n = true -> n = o)
  | Esc c => is_letter c = false /\ c <> 32
  | Begin e | End e => forallb (fun c => is_letter c || (c =? 42)) e = true
  | Chr c => c <> 92
  end.
(** a command ends at the first character that is no letter *)
Definition ends_word (p : piece) : bool := match p with Cmd _ => true | Esc c => c =? 92 | _ => false end.
Definition letter_first (ps : list piece) : bool := match ps with Chr c :: _ => is_letter c | _ => false end.
Fixpoint well (ps : list piece) : Prop :=
  match ps with
  | [] => True
  | p :: l => piece_ok p /\ (ends_word p = true -> letter_first l = false) /\ well l
  end.

Definition is_cmd (n : pystr) (p : piece) : bool := match p with Cmd m => str_eqb m n | _ => false end.
Definition is_chr (c : N) (p : piece) : bool := match p with Chr d => d =? c | _ => false end.
Definition is_begin (n : pystr) (p : piece) : bool := match p with Begin m => str_eqb m n | _ => false end.
Definition is_end (n : pystr) (p : piece) : bool := match p with End m => str_eqb m n | _ => false end.
(** a matrix in brackets is a bmatrix *)
Fixpoint opens (ps : list piece) : list piece :=
  match ps with
  | p :: ((q :: ((r :: l) as l2)) as l1) =>
    if is_cmd (u "left") p && is_chr 91 q && is_begin (u "matrix") r then Begin (u "bmatrix") :: opens l else p :: opens l1
  | _ => ps
  end.
Fixpoint closes (ps : list piece) : list piece :=
  match ps with
  | p :: ((q :: ((r :: l) as l2)) as l1) =>
    if is_end (u "matrix") p && is_cmd (u "right") q && is_chr 93 r then End (u "bmatrix") :: closes l else p :: closes l1
  | _ => ps
  end.
(** the chosen kind of fraction, ln for log, no sizes of parentheses *)
Definition word (style : pystr) (p : piece) : list piece :=
  match p with
  | Cmd n => if existsb (str_eqb n) fracs then [Cmd style]
             else if str_eqb n (u "left") || str_eqb n (u "right") then []
             else if str_eqb n (u "log") then [Cmd (u "ln")] else [p]
  | _ => [p]
  end.
(** no space before a closing parenthesis *)
Fixpoint squeeze (ps : list piece) : list piece :=
  match ps with
  | p :: ((q :: _) as l) => if is_chr 32 p && is_chr 41 q then squeeze l else p :: squeeze l
  | _ => ps
  end.
Definition reprint (style : pystr) (ps : list piece) : list piece := squeeze (flat_map (word style) (closes (opens ps))).

(** * Replacing *)
Lemma replace_go_skip old new a : forall k s, k = List.length a -> replace_go old new k (a ++ s) = replace_go old new 0 s.
Proof.
  induction a as [|c a IH]; intros k s ->; [reflexivity|]. cbn [List.length app replace_go]. apply IH. reflexivity.
Qed.
Lemma replace_here old new s : old <> [] -> replace old new (old ++ s) = new ++ replace old new s.
Proof.
  destruct old as [|o old]; [contradiction|intros _]. unfold replace. cbn [app replace_go].
  assert (starts_with (o :: old) (o :: old ++ s) = true) as -> by (apply starts_with_spec; exists s; reflexivity).
  f_equal. apply replace_go_skip. cbn [List.length]. lia.
Qed.
Lemma replace_step old new c s : starts_with old (c :: s) = false -> replace old new (c :: s) = c :: replace old new s.
Proof. intro H. unfold replace. cbn [replace_go]. rewrite H. reflexivity. Qed.
Lemma replace_over old new a s : (forall c x, old = c :: x -> ~ In c a) -> old <> [] -> replace old new (a ++ s) = a ++ replace old new s.
Proof.
  intros H N. destruct old as [|o old]; [contradiction|]. specialize (H o old eq_refl). induction a as [|c a IH]; [reflexivity|].
  cbn [app]. rewrite replace_step. { rewrite IH; [reflexivity|]. intro I. apply H. right. exact I. }
  cbn [starts_with]. destruct (N.eqb_spec o c) as [->|_]; [|reflexivity]. destruct H. left. reflexivity.
Qed.
Lemma letter_not_slash c : is_letter c = true -> c <> 92.
Proof. intros H ->. discriminate H. Qed.
Lemma letters_no_slash n : forallb is_letter n = true -> ~ In 92 n.
Proof. intros H I. rewrite forallb_forall in H. specialize (H _ I). discriminate H. Qed.
Lemma env_no_slash n : forallb (fun c => is_letter c || (c =? 42)) n = true -> ~ In 92 n.
Proof. intros H I. rewrite forallb_forall in H. specialize (H _ I). discriminate H. Qed.

(** the head of the rest of the text *)
Lemma text_cons p l : text (p :: l) = show p ++ text l.
Proof. reflexivity. Qed.
Lemma text_app a b : text (a ++ b) = text a ++ text b.
Proof. unfold text. rewrite map_app, concat_app. reflexivity. Qed.
Definition no_letter (s : pystr) : Prop := match s with [] => True | c :: _ => is_letter c = false end.
Lemma rest_no_letter l : well l -> letter_first l = false -> no_letter (text l).
Proof.
  destruct l as [|p l]; [intros; exact I|]. intros (Hp & _) H. rewrite text_cons. destruct p; cbn [show app no_letter]; try reflexivity. exact H.
Qed.
(** letters against letters followed by something else *)
Lemma letters_inside w : forallb is_letter w = true -> forall n s, no_letter s -> starts_with w (n ++ s) = true -> starts_with w n = true.
Proof.
  induction w as [|a w IH]; intros Hw n s Hs H; [destruct n; reflexivity|]. cbn [forallb] in Hw. apply andb_true_iff in Hw. destruct Hw as [Ha Hw].
  destruct n as [|b n]; cbn [app] in H.
  - destruct s as [|c s]; [discriminate H|]. cbn [starts_with] in H. apply andb_true_iff in H. destruct H as [H _].
    apply N.eqb_eq in H. subst c. cbn in Hs. congruence.
  - cbn [starts_with] in *. apply andb_true_iff in H. destruct H as [-> H]. cbn [andb]. exact (IH Hw n s Hs H).
Qed.
Lemma str_eqb_iff a b : str_eqb a b = true <-> a = b.
Proof. apply str_eqb_eq. Qed.

(** a corrected command *)
Lemma replace_cmd w new : forallb is_letter w = true -> In w corrected ->
  forall ps, well ps -> replace (92 :: w) new (text ps) = concat (map (fun p => if is_cmd w p then new else show p) ps).
Proof.
  intros Hw Hin. assert (Hne : w <> []) by (intros ->; cbn in Hin; intuition discriminate).
  induction ps as [|p l IH]; intro W; [reflexivity|]. cbn [well] in W. destruct W as (Hp & Hf & W). rewrite text_cons. cbn [map concat]. rewrite <- (IH W). clear IH.
  destruct p as [n|c|e|e|c]; cbn [is_cmd show].
  - destruct Hp as (Hn & Hl & _ & _ & Hc). destruct (str_eqb n w) eqn:E.
    + apply str_eqb_iff in E. subst n. apply replace_here. discriminate.
    + cbn [app]. rewrite replace_step. { f_equal. apply replace_over; [|discriminate]. intros c x [= <- _]. apply letters_no_slash. exact Hl. }
      cbn [starts_with]. rewrite N.eqb_refl. cbn [andb]. destruct (starts_with w (n ++ text l)) eqn:St; [|reflexivity].
      apply letters_inside in St; [|exact Hw|exact (rest_no_letter l W (Hf eq_refl))].
      specialize (Hc w Hin St). subst n. rewrite (proj2 (str_eqb_iff w w) eq_refl) in E. discriminate.
  - destruct Hp as [Hc _]. cbn [app]. rewrite replace_step; [f_equal; rewrite replace_step; [reflexivity|]|].
    + cbn [starts_with]. destruct (N.eqb_spec 92 c) as [<-|_]; [|reflexivity]. cbn [andb].
      pose proof (rest_no_letter l W (Hf eq_refl)) as Hr. destruct w as [|a w]; [contradiction|]. destruct (text l) as [|b t]; [reflexivity|]. cbn [starts_with].
      destruct (N.eqb_spec a b) as [->|_]; [|reflexivity]. cbn in Hr, Hw. rewrite Hr in Hw. discriminate.
    + cbn [starts_with]. rewrite N.eqb_refl. cbn [andb]. destruct w as [|a w]; [contradiction|]. cbn [starts_with].
      destruct (N.eqb_spec a c) as [->|_]; [|reflexivity]. cbn in Hw. rewrite Hc in Hw. discriminate.
  - change ((u "\begin{" ++ e ++ u "}") ++ text l) with (92 :: (u "begin{" ++ e ++ u "}") ++ text l).
    rewrite replace_step. { change (u "\begin{" ++ e ++ u "}") with (92 :: u "begin{" ++ e ++ u "}"). cbn [app]. f_equal.
      refine (replace_over _ _ (u "begin{" ++ e ++ u "}") _ _ _); [|discriminate]. intros c x [= <- _] I. rewrite !in_app_iff in I. destruct I as [I|[I|I]]; [cbn in I; intuition discriminate|exact (env_no_slash e Hp I)|cbn in I; intuition discriminate]. }
    cbn in Hin. repeat (destruct Hin as [<-|Hin]; [reflexivity|]). destruct Hin.
  - change ((u "\end{" ++ e ++ u "}") ++ text l) with (92 :: (u "end{" ++ e ++ u "}") ++ text l).
    rewrite replace_step. { change (u "\end{" ++ e ++ u "}") with (92 :: u "end{" ++ e ++ u "}"). cbn [app]. f_equal.
      refine (replace_over _ _ (u "end{" ++ e ++ u "}") _ _ _); [|discriminate]. intros c x [= <- _] I. rewrite !in_app_iff in I. destruct I as [I|[I|I]]; [cbn in I; intuition discriminate|exact (env_no_slash e Hp I)|cbn in I; intuition discriminate]. }
    cbn in Hin. repeat (destruct Hin as [<-|Hin]; [reflexivity|]). destruct Hin.
  - cbn [app]. rewrite replace_step; [reflexivity|]. cbn [starts_with]. destruct (N.eqb_spec 92 c) as [<-|_]; [|reflexivity]. destruct Hp. reflexivity.
Qed.

(** the same piece by piece *)
Lemma replace_cmd_with w m : forallb is_letter w = true -> In w corrected ->
  forall ps, well ps -> replace (92 :: w) (92 :: m) (text ps) = text (map (fun p => if is_cmd w p then Cmd m else p) ps).
Proof.
  intros Hw Hin ps W. rewrite (replace_cmd w _ Hw Hin ps W). unfold text. rewrite map_map. f_equal. apply map_ext. intro p. destruct (is_cmd w p); reflexivity.
Qed.
Lemma replace_cmd_drop w : forallb is_letter w = true -> In w corrected ->
  forall ps, well ps -> replace (92 :: w) [] (text ps) = text (filter (fun p => negb (is_cmd w p)) ps).
Proof.
  intros Hw Hin ps W. rewrite (replace_cmd w _ Hw Hin ps W). clear W. induction ps as [|p l IH]; [reflexivity|]. cbn [map concat filter].
  rewrite IH. destruct (is_cmd w p); reflexivity.
Qed.
Definition good_name (m : pystr) : Prop := piece_ok (Cmd m).
Lemma well_map w m ps : good_name m -> well ps -> well (map (fun p => if is_cmd w p then Cmd m else p) ps).
Proof.
  intro G. induction ps as [|p l IH]; intro W; [exact I|]. cbn [well] in W. destruct W as (Hp & Hf & W). cbn [map well].
  assert (Hl : letter_first (map (fun p => if is_cmd w p then Cmd m else p) l) = letter_first l)
    by (destruct l as [|[n| | | |] l']; try reflexivity; cbn; destruct (str_eqb n w); reflexivity).
  split; [destruct (is_cmd w p); [exact G|exact Hp]|]. split; [|exact (IH W)]. rewrite Hl. intro E. apply Hf.
  destruct p; cbn in *; try exact E. reflexivity.
Qed.
Lemma first_filter w ps : well ps -> letter_first ps = false -> letter_first (filter (fun p => negb (is_cmd w p)) ps) = false.
Proof.
  induction ps as [|p l IH]; intros W H; [reflexivity|]. cbn [well] in W. destruct W as (Hp & Hf & W). cbn [filter].
  destruct p as [n| | | |]; try exact H; try reflexivity. cbn [is_cmd]. destruct (str_eqb n w); [|reflexivity]. cbn [negb]. exact (IH W (Hf eq_refl)).
Qed.
Lemma well_filter w ps : well ps -> well (filter (fun p => negb (is_cmd w p)) ps).
Proof.
  induction ps as [|p l IH]; intro W; [exact I|]. cbn [well] in W. destruct W as (Hp & Hf & W). cbn [filter].
  destruct (negb (is_cmd w p)); [|exact (IH W)]. cbn [well]. split; [exact Hp|]. split; [|exact (IH W)].
  intro E. exact (first_filter w l W (Hf E)).
Qed.

(** a matrix in brackets *)
Definition apart (t : pystr) : Prop := match t with [] => False | c :: _ => is_letter c = false end.
Lemma env_start e e' x t : forallb (fun c => is_letter c || (c =? 42)) e = true -> forallb is_letter e' = true ->
  starts_with (e' ++ u "}" ++ x) (e ++ u "}" ++ t) = str_eqb e e' && starts_with x t.
Proof.
  change (u "}") with [125]. revert e'. induction e as [|c e IH]; intros [|c' e'] H H'; try reflexivity.
  - cbn in H'. cbn [app starts_with str_eqb andb]. apply andb_true_iff in H'. destruct H' as [H' _].
    destruct (N.eqb_spec c' 125) as [->|_]; [discriminate H'|reflexivity].
  - cbn [forallb] in H. apply andb_true_iff in H. destruct H as [H _]. cbn [app starts_with str_eqb andb]. destruct (N.eqb_spec 125 c) as [<-|_]; [discriminate H|reflexivity].
  - cbn [forallb] in H, H'. apply andb_true_iff in H, H'. destruct H as [Hc H], H' as [Hc' H']. specialize (IH e' H H'). cbn [app] in IH. cbn [app starts_with]. rewrite IH.
    cbn [str_eqb]. rewrite (N.eqb_sym c'), andb_assoc. reflexivity.
Qed.
Lemma cmd_start n w t s : piece_ok (Cmd n) -> forallb is_letter w = true -> no_letter s -> apart t ->
  starts_with (w ++ t) (n ++ s) = str_eqb n w && starts_with t s.
Proof.
  intros (_ & H & _) Hw Hs Ht. revert w Hw H. induction n as [|c n IH]; intros [|c' w] Hw H; try reflexivity.
  - cbn [app str_eqb andb]. cbn [forallb] in Hw. apply andb_true_iff in Hw. destruct Hw as [Hw _]. destruct s as [|d s]; [reflexivity|]. cbn [starts_with].
    destruct (N.eqb_spec c' d) as [->|_]; [|reflexivity]. cbn in Hs. congruence.
  - cbn [app str_eqb andb]. cbn [forallb] in H. apply andb_true_iff in H. destruct H as [H _]. destruct t as [|d t]; [destruct Ht|].
    cbn [starts_with]. destruct (N.eqb_spec d c) as [->|_]; [|reflexivity]. cbn in Ht. congruence.
  - cbn [forallb] in H, Hw. apply andb_true_iff in H, Hw. cbn [app starts_with str_eqb]. rewrite (IH w) by tauto. rewrite (N.eqb_sym c'), andb_assoc. reflexivity.
Qed.
Lemma skip_piece a x new p l : is_letter a = true -> well (p :: l) -> starts_with (92 :: a :: x) (text (p :: l)) = false ->
  replace (92 :: a :: x) new (text (p :: l)) = show p ++ replace (92 :: a :: x) new (text l).
Proof.
  intros Ha (Hp & Hf & W) H. rewrite text_cons in *.
  assert (G : forall c r, show p = c :: r -> ~ In 92 r -> replace (92 :: a :: x) new (show p ++ text l) = show p ++ replace (92 :: a :: x) new (text l)).
  { intros c r E Hr. rewrite E in *. cbn [app] in *. rewrite replace_step by exact H. f_equal. apply replace_over; [|discriminate].
    intros d y [= <- _]. exact Hr. }
  destruct p as [n|c|e|e|c].
  - apply (G 92 n eq_refl). apply letters_no_slash, Hp.
  - destruct (N.eqb_spec c 92) as [->|Hc].
    + cbn [show app] in *. rewrite replace_step by exact H. rewrite replace_step; [reflexivity|].
      pose proof (rest_no_letter l W (Hf eq_refl)) as Hr. cbn [starts_with]. destruct (text l) as [|b t]; [reflexivity|]. cbn [N.eqb Pos.eqb andb].
      destruct (N.eqb_spec a b) as [->|_]; [|reflexivity]. cbn in Hr. congruence.
    + apply (G 92 [c] eq_refl). intros [E|[]]. congruence.
  - apply (G 92 (u "begin{" ++ e ++ u "}") eq_refl). intro I. rewrite !in_app_iff in I. destruct I as [I|[I|I]]; [cbn in I; intuition discriminate|exact (env_no_slash e Hp I)|cbn in I; intuition discriminate].
  - apply (G 92 (u "end{" ++ e ++ u "}") eq_refl). intro I. rewrite !in_app_iff in I. destruct I as [I|[I|I]]; [cbn in I; intuition discriminate|exact (env_no_slash e Hp I)|cbn in I; intuition discriminate].
  - apply (G c [] eq_refl). intros [].
Qed.
Lemma chr_start d x l : d <> 92 -> starts_with (d :: x) (text l) = match l with p :: l' => is_chr d p && starts_with x (text l') | [] => false end.
Proof.
  intro Hd. apply N.eqb_neq in Hd. destruct l as [|[n|c|e|e|c] l]; try reflexivity; rewrite text_cons; cbn [show is_chr andb].
  - cbn [app starts_with]. rewrite Hd. reflexivity.
  - cbn [app starts_with]. rewrite Hd. reflexivity.
  - change ((u "\begin{" ++ e ++ u "}") ++ text l) with (92 :: (u "begin{" ++ e ++ u "}") ++ text l). cbn [starts_with]. rewrite Hd. reflexivity.
  - change ((u "\end{" ++ e ++ u "}") ++ text l) with (92 :: (u "end{" ++ e ++ u "}") ++ text l). cbn [starts_with]. rewrite Hd. reflexivity.
  - cbn [app starts_with]. rewrite (N.eqb_sym d). reflexivity.
Qed.
Definition head_is (f : piece -> bool) (k : list piece -> bool) (l : list piece) : bool := match l with p :: l' => f p && k l' | [] => false end.
Lemma begin_start l : well l -> starts_with (u "\begin{matrix}") (text l) = head_is (is_begin (u "matrix")) (fun _ => true) l.
Proof.
  destruct l as [|p l]; [reflexivity|]. intros (Hp & Hf & W). rewrite text_cons. destruct p as [n|c|e|e|c]; cbn [show head_is is_begin andb].
  - change (u "\begin{matrix}") with (92 :: u "begin" ++ u "{matrix}"). cbn [app]. change (starts_with (92 :: ?a) (92 :: ?b)) with (starts_with a b).
    rewrite (cmd_start n (u "begin") (u "{matrix}") (text l) Hp eq_refl (rest_no_letter l W (Hf eq_refl)) eq_refl).
    destruct (str_eqb n (u "begin")) eqn:E; [|reflexivity]. apply str_eqb_iff in E. destruct Hp as (_ & _ & Hp & _). contradiction.
  - destruct Hp as [Hc _]. cbn [app]. change (u "\begin{matrix}") with (92 :: 98 :: u "egin{matrix}"). cbn [starts_with]. rewrite N.eqb_refl. cbn [andb].
    destruct (N.eqb_spec 98 c) as [<-|_]; [discriminate Hc|reflexivity].
  - change (u "\begin{matrix}") with (u "\begin{" ++ u "matrix" ++ u "}" ++ []). rewrite <- !app_assoc.
    change (starts_with (u "\begin{" ++ ?a) (u "\begin{" ++ ?b)) with (starts_with a b). rewrite env_start by (exact Hp || reflexivity).
    f_equal.
  - reflexivity.
  - cbn [app]. cbn in Hp. apply N.eqb_neq in Hp. change (u "\begin{matrix}") with (92 :: u "begin{matrix}"). cbn [starts_with]. rewrite N.eqb_sym, Hp. reflexivity.
Qed.
Definition open_here (ps : list piece) : bool :=
  head_is (is_cmd (u "left")) (head_is (is_chr 91) (head_is (is_begin (u "matrix")) (fun _ => true))) ps.
Lemma open_start ps : well ps -> starts_with (u "\left[\begin{matrix}") (text ps) = open_here ps.
Proof.
  destruct ps as [|p l]; [reflexivity|]. intros (Hp & Hf & W). rewrite text_cons. unfold open_here. cbn [head_is]. destruct p as [n|c|e|e|c]; cbn [show is_cmd andb].
  - change (u "\left[\begin{matrix}") with (92 :: u "left" ++ u "[\begin{matrix}"). cbn [app]. change (starts_with (92 :: ?a) (92 :: ?b)) with (starts_with a b).
    rewrite (cmd_start n (u "left") (u "[\begin{matrix}") (text l) Hp eq_refl (rest_no_letter l W (Hf eq_refl)) eq_refl). f_equal.
    change (u "[\begin{matrix}") with (91 :: u "\begin{matrix}"). rewrite chr_start by discriminate. destruct l as [|q l]; [reflexivity|]. cbn [head_is]. f_equal.
    apply begin_start. apply W.
  - destruct Hp as [Hc _]. cbn [app]. change (u "\left[\begin{matrix}") with (92 :: 108 :: u "eft[\begin{matrix}"). cbn [starts_with]. rewrite N.eqb_refl. cbn [andb].
    destruct (N.eqb_spec 108 c) as [<-|_]; [discriminate Hc|reflexivity].
  - reflexivity.
  - reflexivity.
  - cbn [app]. cbn in Hp. apply N.eqb_neq in Hp. change (u "\left[\begin{matrix}") with (92 :: u "left[\begin{matrix}"). cbn [starts_with]. rewrite N.eqb_sym, Hp. reflexivity.
Qed.
Definition close_here (ps : list piece) : bool :=
  head_is (is_end (u "matrix")) (head_is (is_cmd (u "right")) (head_is (is_chr 93) (fun _ => true))) ps.
Lemma right_start l : well l -> starts_with (u "\right]") (text l) = head_is (is_cmd (u "right")) (head_is (is_chr 93) (fun _ => true)) l.
Proof.
  destruct l as [|p l]; [reflexivity|]. intros (Hp & Hf & W). rewrite text_cons. cbn [head_is]. destruct p as [n|c|e|e|c]; cbn [show is_cmd andb].
  - change (u "\right]") with (92 :: u "right" ++ u "]"). cbn [app]. change (starts_with (92 :: ?a) (92 :: ?b)) with (starts_with a b).
    rewrite (cmd_start n (u "right") (u "]") (text l) Hp eq_refl (rest_no_letter l W (Hf eq_refl)) eq_refl). f_equal.
    change (u "]") with (93 :: []). rewrite chr_start by discriminate. destruct l as [|q l]; [reflexivity|]. cbn [head_is]. f_equal.
  - destruct Hp as [Hc _]. cbn [app]. change (u "\right]") with (92 :: 114 :: u "ight]"). cbn [starts_with]. rewrite N.eqb_refl. cbn [andb].
    destruct (N.eqb_spec 114 c) as [<-|_]; [discriminate Hc|reflexivity].
  - reflexivity.
  - reflexivity.
  - cbn [app]. cbn in Hp. apply N.eqb_neq in Hp. change (u "\right]") with (92 :: u "right]"). cbn [starts_with]. rewrite N.eqb_sym, Hp. reflexivity.
Qed.
Lemma close_start ps : well ps -> starts_with (u "\end{matrix}\right]") (text ps) = close_here ps.
Proof.
  destruct ps as [|p l]; [reflexivity|]. intros (Hp & Hf & W). rewrite text_cons. unfold close_here. cbn [head_is]. destruct p as [n|c|e|e|c]; cbn [show is_end andb].
  - change (u "\end{matrix}\right]") with (92 :: u "end" ++ u "{matrix}\right]"). cbn [app]. change (starts_with (92 :: ?a) (92 :: ?b)) with (starts_with a b).
    rewrite (cmd_start n (u "end") (u "{matrix}\right]") (text l) Hp eq_refl (rest_no_letter l W (Hf eq_refl)) eq_refl).
    destruct (str_eqb n (u "end")) eqn:E; [|reflexivity]. apply str_eqb_iff in E. destruct Hp as (_ & _ & _ & Hp & _). contradiction.
  - destruct Hp as [Hc _]. cbn [app]. change (u "\end{matrix}\right]") with (92 :: 101 :: u "nd{matrix}\right]"). cbn [starts_with]. rewrite N.eqb_refl. cbn [andb].
    destruct (N.eqb_spec 101 c) as [<-|_]; [discriminate Hc|reflexivity].
  - reflexivity.
  - change (u "\end{matrix}\right]") with (u "\end{" ++ u "matrix" ++ u "}" ++ u "\right]"). rewrite <- !app_assoc.
    change (starts_with (u "\end{" ++ ?a) (u "\end{" ++ ?b)) with (starts_with a b). rewrite env_start by (exact Hp || reflexivity).
    f_equal. exact (right_start l W).
  - cbn [app]. cbn in Hp. apply N.eqb_neq in Hp. change (u "\end{matrix}\right]") with (92 :: u "end{matrix}\right]"). cbn [starts_with]. rewrite N.eqb_sym, Hp. reflexivity.
Qed.
Lemma opens_eq p l : opens (p :: l) = if open_here (p :: l) then Begin (u "bmatrix") :: opens (skipn 2 l) else p :: opens l.
Proof.
  unfold open_here. cbn [head_is]. destruct l as [|q [|r l]]; cbn [opens head_is skipn].
  - rewrite andb_false_r. reflexivity.
  - rewrite andb_false_r, andb_false_r. reflexivity.
  - rewrite andb_true_r, andb_assoc. reflexivity.
Qed.
Lemma closes_eq p l : closes (p :: l) = if close_here (p :: l) then End (u "bmatrix") :: closes (skipn 2 l) else p :: closes l.
Proof.
  unfold close_here. cbn [head_is]. destruct l as [|q [|r l]]; cbn [closes head_is skipn].
  - rewrite andb_false_r. reflexivity.
  - rewrite andb_false_r, andb_false_r. reflexivity.
  - rewrite andb_true_r, andb_assoc. reflexivity.
Qed.
Lemma open_text p l : open_here (p :: l) = true -> text (p :: l) = u "\left[\begin{matrix}" ++ text (skipn 2 l).
Proof.
  unfold open_here. cbn [head_is]. intro H. apply andb_true_iff in H. destruct H as [H1 H]. destruct l as [|q l]; [discriminate H|]. cbn [head_is] in H.
  apply andb_true_iff in H. destruct H as [H2 H]. destruct l as [|r l]; [discriminate H|]. cbn [head_is] in H. rewrite andb_true_r in H.
  destruct p as [n| | | |]; try discriminate H1. destruct q as [| | | |c]; try discriminate H2. destruct r as [| |e| |]; try discriminate H.
  cbn in H1, H2, H. apply str_eqb_iff in H1, H. apply N.eqb_eq in H2. subst. reflexivity.
Qed.
Lemma close_text p l : close_here (p :: l) = true -> text (p :: l) = u "\end{matrix}\right]" ++ text (skipn 2 l).
Proof.
  unfold close_here. cbn [head_is]. intro H. apply andb_true_iff in H. destruct H as [H1 H]. destruct l as [|q l]; [discriminate H|]. cbn [head_is] in H.
  apply andb_true_iff in H. destruct H as [H2 H]. destruct l as [|r l]; [discriminate H|]. cbn [head_is] in H. rewrite andb_true_r in H.
  destruct p as [| | |e|]; try discriminate H1. destruct q as [n| | | |]; try discriminate H2. destruct r as [| | | |c]; try discriminate H.
  cbn in H1, H2, H. apply str_eqb_iff in H1, H2. apply N.eqb_eq in H. subst. reflexivity.
Qed.
Lemma well_skip k : forall l, well l -> well (skipn k l).
Proof. induction k as [|k IH]; intros [|p l] W; try exact W. cbn [skipn]. apply IH, W. Qed.
Lemma replace_open ps : well ps -> replace (u "\left[\begin{matrix}") (u "\begin{bmatrix}") (text ps) = text (opens ps).
Proof.
  remember (List.length ps) as n eqn:E. assert (H : (List.length ps <= n)%nat) by lia. clear E. revert ps H. induction n as [|n IH]; intros ps H W.
  - destruct ps; [reflexivity|cbn in H; lia].
  - destruct ps as [|p l]; [reflexivity|]. rewrite opens_eq. pose proof (open_start _ W) as S. destruct (open_here (p :: l)) eqn:O.
    + rewrite (open_text p l O), replace_here by discriminate. rewrite IH; [reflexivity| |exact (well_skip 2 l (proj2 (proj2 W)))].
      rewrite skipn_length. cbn in H. lia.
    + change (u "\left[\begin{matrix}") with (92 :: 108 :: u "eft[\begin{matrix}") in *. rewrite skip_piece by (reflexivity || assumption).
      rewrite IH; [reflexivity|cbn in H; lia|apply W].
Qed.
Lemma replace_close ps : well ps -> replace (u "\end{matrix}\right]") (u "\end{bmatrix}") (text ps) = text (closes ps).
Proof.
  remember (List.length ps) as n eqn:E. assert (H : (List.length ps <= n)%nat) by lia. clear E. revert ps H. induction n as [|n IH]; intros ps H W.
  - destruct ps; [reflexivity|cbn in H; lia].
  - destruct ps as [|p l]; [reflexivity|]. rewrite closes_eq. pose proof (close_start _ W) as S. destruct (close_here (p :: l)) eqn:O.
    + rewrite (close_text p l O), replace_here by discriminate. rewrite IH; [reflexivity| |exact (well_skip 2 l (proj2 (proj2 W)))].
      rewrite skipn_length. cbn in H. lia.
    + change (u "\end{matrix}\right]") with (92 :: 101 :: u "nd{matrix}\right]") in *. rewrite skip_piece by (reflexivity || assumption).
      rewrite IH; [reflexivity|cbn in H; lia|apply W].
Qed.
Lemma first_opens l : letter_first (opens l) = letter_first l.
Proof.
  destruct l as [|p l]; [reflexivity|]. rewrite opens_eq. destruct (open_here (p :: l)) eqn:O; [|reflexivity].
  unfold open_here in O. cbn [head_is] in O. apply andb_true_iff in O. destruct O as [O _]. destruct p; try discriminate O. reflexivity.
Qed.
Lemma first_closes l : letter_first (closes l) = letter_first l.
Proof.
  destruct l as [|p l]; [reflexivity|]. rewrite closes_eq. destruct (close_here (p :: l)) eqn:O; [|reflexivity].
  unfold close_here in O. cbn [head_is] in O. apply andb_true_iff in O. destruct O as [O _]. destruct p; try discriminate O. reflexivity.
Qed.
Lemma well_opens ps : well ps -> well (opens ps).
Proof.
  remember (List.length ps) as n eqn:E. assert (H : (List.length ps <= n)%nat) by lia. clear E. revert ps H. induction n as [|n IH]; intros ps H W.
  - destruct ps; [exact I|cbn in H; lia].
  - destruct ps as [|p l]; [exact I|]. rewrite opens_eq. destruct W as (Hp & Hf & W). destruct (open_here (p :: l)) eqn:O; cbn [well].
    + split; [reflexivity|]. split; [discriminate|]. apply IH; [rewrite skipn_length; cbn in H; lia|exact (well_skip 2 l W)].
    + split; [exact Hp|]. split; [rewrite first_opens; exact Hf|]. apply IH; [cbn in H; lia|exact W].
Qed.
Lemma well_closes ps : well ps -> well (closes ps).
Proof.
  remember (List.length ps) as n eqn:E. assert (H : (List.length ps <= n)%nat) by lia. clear E. revert ps H. induction n as [|n IH]; intros ps H W.
  - destruct ps; [exact I|cbn in H; lia].
  - destruct ps as [|p l]; [exact I|]. rewrite closes_eq. destruct W as (Hp & Hf & W). destruct (close_here (p :: l)) eqn:O; cbn [well].
    + split; [reflexivity|]. split; [discriminate|]. apply IH; [rewrite skipn_length; cbn in H; lia|exact (well_skip 2 l W)].
    + split; [exact Hp|]. split; [rewrite first_closes; exact Hf|]. apply IH; [cbn in H; lia|exact W].
Qed.

(** the space before a closing parenthesis *)
Lemma squeeze_eq p l : squeeze (p :: l) = if is_chr 32 p && match l with q :: _ => is_chr 41 q | [] => false end then squeeze l else p :: squeeze l.
Proof. destruct l as [|q l]; cbn [squeeze]; [rewrite andb_false_r; reflexivity|reflexivity]. Qed.
Lemma replace_space ps : well ps -> replace (u " )") (u ")") (text ps) = text (squeeze ps).
Proof.
  change (u " )") with [32; 41]. change (u ")") with [41]. induction ps as [|p l IH]; intro W; [reflexivity|]. rewrite squeeze_eq, text_cons. destruct W as (Hp & Hf & W). specialize (IH W).
  assert (G : forall a, ~ In 32 a -> replace [32; 41] [41] (a ++ text l) = a ++ text (squeeze l)).
  { intros a Ha. rewrite replace_over; [rewrite IH; reflexivity| |discriminate]. intros c x [= <- _]. exact Ha. }
  assert (B : forall e, forallb (fun c => is_letter c || (c =? 42)) e = true -> ~ In 32 e).
  { intros e He I. rewrite forallb_forall in He. specialize (He _ I). discriminate He. }
  destruct p as [n|c|e|e|c]; cbn [is_chr andb]; rewrite ?text_cons.
  - apply G. intros [E|I]; [discriminate E|]. destruct Hp as (_ & Hp & _). rewrite forallb_forall in Hp. specialize (Hp _ I). discriminate Hp.
  - apply G. destruct Hp as [_ Hp]. intros [E|[E|[]]]; [discriminate E|congruence].
  - apply G. cbn [show]. rewrite !in_app_iff. intros [I|[I|I]]; [cbn in I; intuition discriminate|exact (B e Hp I)|cbn in I; intuition discriminate].
  - apply G. cbn [show]. rewrite !in_app_iff. intros [I|[I|I]]; [cbn in I; intuition discriminate|exact (B e Hp I)|cbn in I; intuition discriminate].
  - destruct (N.eqb_spec c 32) as [->|Hc]; cbn [andb].
    + cbn [show app]. assert (S : starts_with [32; 41] (32 :: text l) = match l with q :: _ => is_chr 41 q | [] => false end).
      { change (starts_with [32; 41] (32 :: text l)) with (starts_with [41] (text l)). rewrite chr_start by discriminate. destruct l as [|q l]; [reflexivity|]. apply andb_true_r. }
      destruct l as [|q l]; [reflexivity|]. destruct (is_chr 41 q) eqn:Q.
      * destruct q as [| | | |d]; try discriminate Q. cbn in Q. apply N.eqb_eq in Q. subst d. rewrite text_cons in IH |- *. cbn [show app] in *.
        change (32 :: 41 :: text l) with ([32; 41] ++ text l). rewrite replace_here by discriminate. rewrite <- IH. rewrite replace_step by reflexivity. reflexivity.
      * rewrite replace_step by exact S. rewrite IH. reflexivity.
    + rewrite text_cons. apply G. intros [E|[]]. congruence.
Qed.
Lemma first_squeeze l : letter_first (squeeze l) = letter_first l.
Proof.
  induction l as [|p l IH]; [reflexivity|]. rewrite squeeze_eq. destruct (is_chr 32 p) eqn:P; cbn [andb]; [|reflexivity].
  destruct p as [| | | |c]; try discriminate P. cbn in P. apply N.eqb_eq in P. subst c. destruct l as [|q l]; [reflexivity|]. destruct (is_chr 41 q) eqn:Q; [|reflexivity].
  rewrite IH. destruct q as [| | | |d]; try discriminate Q. cbn in Q. apply N.eqb_eq in Q. subst d. reflexivity.
Qed.
Lemma well_squeeze ps : well ps -> well (squeeze ps).
Proof.
  induction ps as [|p l IH]; intro W; [exact I|]. rewrite squeeze_eq. destruct W as (Hp & Hf & W).
  destruct (is_chr 32 p && _); [exact (IH W)|]. cbn [well]. rewrite first_squeeze. auto.
Qed.

(** * The corrections together *)
Lemma style_good style : In style fracs -> good_name style.
Proof.
  intro H. unfold good_name. cbn [piece_ok]. cbn in H. destruct H as [<-|[<-|[<-|[]]]]; (split; [discriminate|]); (split; [reflexivity|]); (split; [discriminate|]); (split; [discriminate|]);
    intros o Ho; cbn in Ho; repeat (destruct Ho as [<-|Ho]; [try reflexivity; intro Hs; discriminate Hs|]); destruct Ho.
Qed.
Definition to_style (style : pystr) (p : piece) : piece := match p with Cmd n => if existsb (str_eqb n) fracs then Cmd style else p | _ => p end.
Lemma three_styles style ps : In style fracs ->
  map (fun p => if is_cmd (u "tfrac") p then Cmd style else p) (map (fun p => if is_cmd (u "dfrac") p then Cmd style else p) (map (fun p => if is_cmd (u "frac") p then Cmd style else p) ps)) = map (to_style style) ps.
Proof.
  intro H. rewrite !map_map. apply map_ext. intro p. destruct p as [n| | | |]; try reflexivity. cbn [is_cmd to_style existsb fracs].
  destruct (str_eqb n (u "frac")) eqn:E1; cbn [is_cmd orb].
  - cbn in H. destruct H as [<-|[<-|[<-|[]]]]; reflexivity.
  - rewrite E1 || idtac. destruct (str_eqb n (u "dfrac")) eqn:E2; cbn [is_cmd orb].
    + cbn in H. destruct H as [<-|[<-|[<-|[]]]]; reflexivity.
    + destruct (str_eqb n (u "tfrac")); reflexivity.
Qed.
(** the passes commute *)
Lemma style_cmd style n p : In style fracs -> ~ In n fracs -> is_cmd n (to_style style p) = is_cmd n p.
Proof.
  intros Hs Hn. destruct p as [m| | | |]; try reflexivity. cbn [to_style]. destruct (existsb (str_eqb m) fracs) eqn:E; [|reflexivity]. cbn [is_cmd].
  apply existsb_exists in E. destruct E as (x & Hx & Hm). apply str_eqb_iff in Hm. subst x.
  destruct (str_eqb style n) eqn:E1; [apply str_eqb_iff in E1; subst; contradiction|]. destruct (str_eqb m n) eqn:E2; [apply str_eqb_iff in E2; subst; contradiction|reflexivity].
Qed.
Lemma style_chr style c p : is_chr c (to_style style p) = is_chr c p.
Proof. destruct p as [m| | | |]; try reflexivity. cbn [to_style]. destruct (existsb _ _); reflexivity. Qed.
Lemma style_begin style c p : is_begin c (to_style style p) = is_begin c p.
Proof. destruct p as [m| | | |]; try reflexivity. cbn [to_style]. destruct (existsb _ _); reflexivity. Qed.
Lemma style_end style c p : is_end c (to_style style p) = is_end c p.
Proof. destruct p as [m| | | |]; try reflexivity. cbn [to_style]. destruct (existsb _ _); reflexivity. Qed.
Ltac not_frac := let I := fresh in cbn; intro I; intuition discriminate.
Lemma opens_style style ps : In style fracs -> opens (map (to_style style) ps) = map (to_style style) (opens ps).
Proof.
  intro Hs. remember (List.length ps) as n eqn:E. assert (H : (List.length ps <= n)%nat) by lia. clear E. revert ps H. induction n as [|n IH]; intros ps H.
  - destruct ps; [reflexivity|cbn in H; lia].
  - destruct ps as [|p l]; [reflexivity|]. cbn [map]. rewrite !opens_eq.
    assert (open_here (to_style style p :: map (to_style style) l) = open_here (p :: l)) as ->.
    { unfold open_here. destruct l as [|q [|r l]]; cbn [head_is map]; rewrite ?(style_cmd style _ _ Hs), ?style_chr, ?style_begin by not_frac; reflexivity. }
    destruct (open_here (p :: l)); cbn [map]; f_equal.
    + rewrite <- IH by (rewrite skipn_length; cbn in H; lia). rewrite skipn_map. reflexivity.
    + apply IH. cbn in H. lia.
Qed.
Lemma closes_style style ps : In style fracs -> closes (map (to_style style) ps) = map (to_style style) (closes ps).
Proof.
  intro Hs. remember (List.length ps) as n eqn:E. assert (H : (List.length ps <= n)%nat) by lia. clear E. revert ps H. induction n as [|n IH]; intros ps H.
  - destruct ps; [reflexivity|cbn in H; lia].
  - destruct ps as [|p l]; [reflexivity|]. cbn [map]. rewrite !closes_eq.
    assert (close_here (to_style style p :: map (to_style style) l) = close_here (p :: l)) as ->.
    { unfold close_here. destruct l as [|q [|r l]]; cbn [head_is map]; rewrite ?(style_cmd style _ _ Hs), ?style_chr, ?style_end by not_frac; reflexivity. }
    destruct (close_here (p :: l)); cbn [map]; f_equal.
    + rewrite <- IH by (rewrite skipn_length; cbn in H; lia). rewrite skipn_map. reflexivity.
    + apply IH. cbn in H. lia.
Qed.
Definition to_ln (p : piece) : piece := if is_cmd (u "log") p then Cmd (u "ln") else p.
Lemma squeeze_ln ps : map to_ln (squeeze ps) = squeeze (map to_ln ps).
Proof.
  assert (C : forall c p, is_chr c (to_ln p) = is_chr c p) by (intros c [n| | | |]; try reflexivity; unfold to_ln; cbn [is_cmd]; destruct (str_eqb n (u "log")); reflexivity).
  induction ps as [|p l IH]; [reflexivity|]. cbn [map]. rewrite !squeeze_eq, C.
  assert (match map to_ln l with q :: _ => is_chr 41 q | [] => false end = match l with q :: _ => is_chr 41 q | [] => false end) as -> by (destruct l; [reflexivity|apply C]).
  destruct (is_chr 32 p && _); [exact IH|]. cbn [map]. rewrite IH. reflexivity.
Qed.
Lemma words style ps : In style fracs ->
  map to_ln (filter (fun p => negb (is_cmd (u "right") p)) (filter (fun p => negb (is_cmd (u "left") p)) (map (to_style style) ps))) = flat_map (word style) ps.
Proof.
  intro Hs. induction ps as [|p l IH]; [reflexivity|]. cbn [map flat_map]. rewrite <- IH. clear IH. destruct p as [n|c|e|e|c]; try reflexivity.
  cbn [to_style word]. destruct (existsb (str_eqb n) fracs) eqn:F.
  - cbn in Hs. destruct Hs as [<-|[<-|[<-|[]]]]; reflexivity.
  - cbn [filter is_cmd]. destruct (str_eqb n (u "left")) eqn:L; cbn [negb orb filter is_cmd]; [reflexivity|].
    destruct (str_eqb n (u "right")) eqn:R; cbn [negb filter map app]; [reflexivity|]. unfold to_ln at 1. cbn [is_cmd].
    destruct (str_eqb n (u "log")); reflexivity.
Qed.
Lemma relatex_pieces style ps : In style fracs -> well ps -> relatex (92 :: style) (text ps) = text (reprint style ps).
Proof.
  intros Hs W. unfold relatex. pose proof (style_good style Hs) as G.
  assert (I1 : In (u "frac") corrected) by (left; reflexivity). assert (I2 : In (u "dfrac") corrected) by (right; left; reflexivity).
  assert (I3 : In (u "tfrac") corrected) by (do 2 right; left; reflexivity). assert (I4 : In (u "left") corrected) by (do 3 right; left; reflexivity).
  assert (I5 : In (u "right") corrected) by (do 4 right; left; reflexivity). assert (I6 : In (u "log") corrected) by (do 5 right; left; reflexivity).
  pose proof (replace_cmd_with (u "frac") style eq_refl I1 ps W) as R1. pose proof (well_map (u "frac") style ps G W) as W1.
  pose proof (replace_cmd_with (u "dfrac") style eq_refl I2 _ W1) as R2. pose proof (well_map (u "dfrac") style _ G W1) as W2.
  pose proof (replace_cmd_with (u "tfrac") style eq_refl I3 _ W2) as R3. pose proof (well_map (u "tfrac") style _ G W2) as W3.
  rewrite (three_styles style ps Hs) in R3, W3.
  pose proof (replace_open _ W3) as R4. pose proof (well_opens _ W3) as W4. pose proof (replace_close _ W4) as R5. pose proof (well_closes _ W4) as W5.
  pose proof (replace_cmd_drop (u "left") eq_refl I4 _ W5) as R6. pose proof (well_filter (u "left") _ W5) as W6.
  pose proof (replace_cmd_drop (u "right") eq_refl I5 _ W6) as R7. pose proof (well_filter (u "right") _ W6) as W7.
  pose proof (replace_space _ W7) as R8. pose proof (well_squeeze _ W7) as W8.
  pose proof (replace_cmd_with (u "log") (u "ln") eq_refl I6 _ W8) as R9.
  change (92 :: u "frac") with (u "\frac") in R1. change (92 :: u "dfrac") with (u "\dfrac") in R2. change (92 :: u "tfrac") with (u "\tfrac") in R3.
  change (92 :: u "left") with (u "\left") in R6. change (92 :: u "right") with (u "\right") in R7. change (92 :: u "log") with (u "\log") in R9. change (92 :: u "ln") with (u "\ln") in R9.
  cbv zeta. rewrite R1, R2, R3, R4, R5, R6, R7, R8, R9. clear R1 R2 R3 R4 R5 R6 R7 R8 R9 W1 W2 W3 W4 W5 W6 W7 W8.
  change (fun p => if is_cmd (u "log") p then Cmd (u "ln") else p) with to_ln. rewrite squeeze_ln. unfold reprint. f_equal. f_equal.
  rewrite (opens_style style ps Hs), (closes_style style _ Hs). apply words. exact Hs.
Qed.

(** * The kind of fraction in force is always one of the three *)
Section Kind.
Context {V : Type}.
Variable O : LSympy V.
Definition kind (st : globals V) (style : pystr) : Prop := In style fracs /\ g_frac st = 92 :: style.
Definition has_kind (st : globals V) : Prop := exists style, kind st style.
Definition kinds (A : Type) (m : M (globals V) A) : Prop := forall st, has_kind st -> has_kind (snd (m st)).
Lemma kinds_style A m : same_style A m -> kinds A m.
Proof. intros H st (k & Hk & E). exists k. split; [exact Hk|]. rewrite (H st). exact E. Qed.
Lemma kinds_closed : closed O kinds.
Proof.
  pose proof (style_closed O) as []. split; intros; try (apply kinds_style; auto; fail).
  intros st Hst. unfold bind. match goal with Hm : kinds _ _, Hf : forall _, kinds _ _ |- _ => specialize (Hm st Hst); destruct (m st) as [[a|e] s]; [apply (Hf a), Hm|exact Hm] end.
Qed.
Lemma kind_call n s vs st : has_kind st -> has_kind (snd (latex2sympy O n s vs st)).
Proof.
  apply (latex2sympy_closed O kinds kinds_closed).
  - intros k v. apply kinds_style. intro st'. reflexivity.
  - intros s' vs' st' (k & Hk & E). unfold head, gets, set_frac, set_values, bind, frac_of, has_kind, kind. cbn [snd g_frac].
    destruct (contains (u "\tfrac") s'); [exists (u "tfrac"); split; [cbn; tauto|reflexivity]|].
    destruct (contains (u "\dfrac") s'); [exists (u "dfrac"); split; [cbn; tauto|reflexivity]|].
    destruct (contains (u "\frac") s'); [exists (u "frac"); split; [cbn; tauto|reflexivity]|]. exists k. split; [exact Hk|exact E].
  - intros A m m' E H st' K. rewrite <- E. apply H, K.
Qed.
Lemma kind_after h : has_kind (after O h (fresh (V := V))).
Proof.
  assert (G : forall st, has_kind st -> has_kind (after O h st)).
  { induction h as [|c h IH]; intros st K; [exact K|]. cbn [after fold_left]. apply IH, kind_call, K. }
  apply G. exists (u "frac"). split; [cbn; tauto|reflexivity].
Qed.

(** latex and latex2latex *)
Lemma latex_prints v st style ps : kind st style -> o_latex _ O v = Ret (text ps) -> well ps -> latex O v st = (Ret (text (reprint style ps)), st).
Proof.
  intros [Hk E] Hl W. unfold latex, bind, gets, lift_res. rewrite Hl. cbn. rewrite E, (relatex_pieces style ps Hk W). reflexivity.
Qed.
Lemma latex2latex_prints h n s r w ps st' : latex2sympy O n s [] (after O h fresh) = (Ret r, st') ->
  match r with LL _ | LTD _ => w = r | _ => o_simplified _ O r (g_variances st') = Ret w end ->
  o_latex _ O w = Ret (text ps) -> well ps ->
  exists style, kind st' style /\ latex2latex O n s (after O h fresh) = (Ret (text (reprint style ps)), st').
Proof.
  intro E. pose proof (kind_call n s [] _ (kind_after h)) as (style & K). rewrite E in K.
  cbn [snd] in K. intros Hw Hl W. exists style. split; [exact K|]. unfold latex2latex. unfold bind at 1. rewrite E. cbn beta iota.
  destruct r; try (subst w; exact (latex_prints _ _ _ _ K Hl W));
    (unfold bind at 1, gets; cbn beta iota; unfold bind, lift_res; rewrite Hw; exact (latex_prints _ _ _ _ K Hl W)).
Qed.
End Kind.

(** a longer command is cut *)
Lemma longer_cut : exists n, forallb is_letter n = true /\ ~ In n corrected /\ relatex (u "\frac") (92 :: n) <> 92 :: n.
Proof. exists (u "rightarrow"). split; [reflexivity|]. split; [cbn; intuition discriminate|]. discriminate. Qed.
