(** Properties C54 and C62-C64: intervals (latex_normalize.py:126-158, evaluations.py:82-97). *)
From Coq Require Import String List NArith ZArith QArith Bool Lia Lqa Permutation.
From Verif Require Import PyStr SplitTheory NormClean Monad MonadTheory Eval Interval IntervalTheory IntervalEval DemoInterval.
Import ListNotations.

(** ** C54 *)
Theorem C54_members St V S (IS : ISympy St V S) num set cupsep capsep parts : faithful IS num set ->
  cup_like cupsep -> cap_like capsep -> parts <> [] ->
  Forall (fun p => p <> [] /\ Forall ordinary p /\ Forall (fun v => ordered v /\ read IS num v) p /\ prefixes_meet_usually p) parts ->
  exists r R, pure_to (interval_of IS (whole cupsep capsep (map (map fst) parts))) r /\ set r R /\
    forall x, R x <-> Exists (fun p => Forall (fun i => usual i x) p) parts.
Proof. exact (fun F => interval_usual IS num set F cupsep capsep parts). Qed.
Print Assumptions C54_members.
(** Decreasing end points: no interval *)
Theorem C54_illegal St V S (IS : ISympy St V S) num set cupsep capsep parts p i q rest : faithful IS num set -> cup_like cupsep -> cap_like capsep ->
  Forall (fun p => p <> [] /\ Forall ordinary p /\ Forall (fun v => ordered v /\ read IS num v) p /\ prefixes_meet_usually p) parts ->
  Forall ordinary p -> Forall (fun v => ordered v /\ read IS num v) p -> Forall ordinary q -> ordinary i -> read IS num i -> ~ ordered i ->
  Forall (fun p => p <> [] /\ Forall ordinary p) rest ->
  forall st, exists e st', interval_of IS (whole cupsep capsep (map (map fst) (parts ++ (p ++ i :: q) :: rest))) st = (Raise e, st').
Proof. exact (fun F => interval_usual_illegal IS num set F cupsep capsep parts p i q rest). Qed.
Print Assumptions C54_illegal.
(** Finding: an intersection that becomes empty on the way is forgotten. *)
Theorem C54_forgotten St V S (IS : ISympy St V S) num set capsep p1 p2 : faithful IS num set -> cap_like capsep -> p1 <> [] -> p2 <> [] ->
  Forall ordinary (p1 ++ p2) -> Forall (fun v => ordered v /\ read IS num v) (p1 ++ p2) -> prefixes_meet_usually p1 -> prefixes_meet_usually p2 ->
  (forall x, ~ Forall (fun i => usual i x) p1) ->
  exists r R, pure_to (interval_of IS (join capsep (map text (map fst (p1 ++ p2))))) r /\ set r R /\ forall x, R x <-> Forall (fun i => usual i x) p2.
Proof. exact (fun F => interval_usual_forgets IS num set F capsep p1 p2). Qed.
Print Assumptions C54_forgotten.
Local Notation B := (BSympy small_numbers).
Local Notation bset_is := (fun (s : bset) (P : Q -> Prop) => forall x, members s x <-> P x).
Definition mk (lo : bool) (a b : string) (ro : bool) : written := {| w_lopen := lo; w_lo := u a; w_hi := u b; w_ropen := ro |}.
(** [0, 2) and (1, infinity) *)
Definition i02 : valued := (mk false "0" "2" true, (Fin 0, Fin 2)).
Definition i1i : valued := (mk true "1" "\infty" true, (Fin 1, PInf)).
Definition i56 : valued := (mk false "5" "6" false, (Fin 5, Fin 6)).
Definition i43 : valued := (mk true "4" "3" true, (Fin 4, Fin 3)).
Local Ltac absent := vm_compute; intuition discriminate.
Local Ltac plains := repeat split; try absent; (apply contains_free; reflexivity).
Lemma ordinary_02 : ordinary i02. Proof. split; [plains|]. repeat split; try absent; intros _; [exists 0%Z|exists 2%Z]; reflexivity. Qed.
Lemma ordinary_1i : ordinary i1i. Proof. split; [plains|]. repeat split; try absent; intros _; exists 1%Z; reflexivity. Qed.
Lemma ordinary_56 : ordinary i56. Proof. split; [plains|]. repeat split; try absent; intros _; [exists 5%Z|exists 6%Z]; reflexivity. Qed.
Lemma ordinary_43 : ordinary i43. Proof. split; [plains|]. repeat split; try absent; intros _; [exists 4%Z|exists 3%Z]; reflexivity. Qed.
Local Ltac readable := split; [reflexivity|split; (eexists; split; [intro; reflexivity|reflexivity])].
Lemma single_meet v : prefixes_meet_usually [v].
Proof. intros [|a [|b l]] l' E Ha Hb; [contradiction| |destruct l; discriminate E]. cbn in E. injection E as _ E. congruence. Qed.
Lemma pair_meet v w x : usual v x -> prefixes_meet_usually [v; w].
Proof.
  intros Hx [|a [|b [|c l]]] l' E Ha Hb; cbn in E; [contradiction| |injection E as _ _ E; congruence|discriminate E].
  injection E as <- _. exists x. constructor; [exact Hx|constructor].
Qed.
Lemma meet_02 w : prefixes_meet_usually [i02; w].
Proof. apply (pair_meet i02 w 1%Q). unfold usual, i02, mk, above, below. cbn. lra. Qed.
(** The union of "[0,2) \cap (1,\infty)" and "[5,6]" *)
Example C54_ex1 : exists r R, pure_to (interval_of B (u "[0,2)\cap(1,\infty)\cup[5,6]")) r /\ bset_is r R /\
  forall x, R x <-> (1 < x /\ x < 2 \/ 5 <= x /\ x <= 6)%Q.
Proof.
  destruct (C54_members _ _ _ B eq bset_is (u "\cup") (u "\cap") [[i02; i1i]; [i56]] (bfaithful _)) as (r & R & P & Sr & HR).
  - right; reflexivity.
  - right; reflexivity.
  - discriminate.
  - constructor; [|constructor; [|constructor]]; (split; [discriminate|]).
    + split; [repeat constructor; first [apply ordinary_02|apply ordinary_1i]|]. split; [constructor; [readable|constructor; [readable|constructor]]|apply meet_02].
    + split; [repeat constructor; apply ordinary_56|]. split; [constructor; [readable|constructor]|apply single_meet].
  - exists r, R. split; [exact P|]. split; [exact Sr|]. intro x. rewrite HR, !Exists_cons, Exists_nil, !Forall_cons_iff.
    unfold usual, i02, i1i, i56, mk, above, below. cbn. rewrite !Forall_nil_iff. intuition lra.
Qed.
Example C54_ex2 st : exists e st', interval_of B (u "[5,6]∩(4,3)⋃[0,2)") st = (Raise e, st').
Proof.
  apply (C54_illegal _ _ _ B eq bset_is cup_sign cap_sign [] [i56] i43 [] [[i02]] (bfaithful _)); try (left; reflexivity); try (constructor; fail).
  - constructor; [apply ordinary_56|constructor].
  - constructor; [readable|constructor].
  - apply ordinary_43.
  - split; (eexists; split; [intro; reflexivity|reflexivity]).
  - discriminate.
  - constructor; [|constructor]. split; [discriminate|]. constructor; [apply ordinary_02|constructor].
Qed.
(** "[0,2) \cap [5,6] \cap (1,\infty)" is empty, but (1, infinity) is computed. *)
Example C54_ex3 : exists r R, pure_to (interval_of B (u "[0,2)\cap[5,6]\cap(1,\infty)")) r /\ bset_is r R /\ forall x, R x <-> (1 < x)%Q.
Proof.
  destruct (C54_forgotten _ _ _ B eq bset_is (u "\cap") [i02; i56] [i1i] (bfaithful _)) as (r & R & P & Sr & HR).
  - right; reflexivity.
  - discriminate.
  - discriminate.
  - repeat constructor; first [apply ordinary_02|apply ordinary_1i|apply ordinary_56].
  - constructor; [readable|constructor; [readable|constructor; [readable|constructor]]].
  - apply meet_02.
  - apply single_meet.
  - intros x H. rewrite !Forall_cons_iff in H. unfold usual, i02, i56, mk, above, below in H. cbn in H. lra.
  - exists r, R. split; [exact P|]. split; [exact Sr|]. intro x. rewrite HR, !Forall_cons_iff, Forall_nil_iff. unfold usual, i1i, mk, above, below. cbn. intuition.
Qed.

(** ** C62 *)
(** A round bracket inside an end point opens a closed interval: [( ... ) in x] is tested on the whole text. *)
Theorem C62_inner_bracket St V S (IS : ISympy St V S) num set i e f : faithful IS num set -> plain i -> reads IS num i e f -> ext_gt (snap e) (snap f) = false ->
  In 40%N (w_lo i) \/ In 40%N (w_hi i) ->
  exists r R, pure_to (one_interval IS (text i)) r /\ set r R /\ forall x, R x -> above true (snap e) x.
Proof. exact (fun F => inner_bracket IS num set F i e f). Qed.
Print Assumptions C62_inner_bracket.
(** "[(0,2]": 0 is excluded although the bracket is closed *)
Example C62_ex : exists r R, pure_to (one_interval B (u "[(0,2]")) r /\ bset_is r R /\ forall x, R x -> (0 < x)%Q.
Proof.
  destruct (C62_inner_bracket _ _ _ B eq bset_is (mk false "(0" "2" false) (Fin 0) (Fin 2) (bfaithful _)) as (r & R & P & Sr & HR).
  - plains.
  - split; (eexists; split; [intro; reflexivity|reflexivity]).
  - reflexivity.
  - left. left. reflexivity.
  - exists r, R. auto.
Qed.

(** ** C63 *)
(** An upper end point just below the integer z > 0 is replaced by z - 1. *)
Theorem C63_moved_down St V S (IS : ISympy St V S) num set i e z d : faithful IS num set -> plain i -> bracketless (w_lo i) -> bracketless (w_hi i) ->
  steady_end e -> (0 < z)%Z -> (0 < d)%Q -> (d <= 1 # 10000000)%Q -> reads IS num i e (Fin (inject_Z z - d)) -> ext_gt e (Fin (inject_Z (z - 1))) = false ->
  exists r R, pure_to (one_interval IS (text i)) r /\ set r R /\ forall x, R x <-> above (w_lopen i) e x /\ below (w_ropen i) (Fin (inject_Z (z - 1))) x.
Proof. exact (fun F => moved_down IS num set F i e z d). Qed.
Print Assumptions C63_moved_down.
(** "[0,2.99999999]" is read as [0, 2]. *)
Example C63_ex : exists r R, pure_to (one_interval B (u "[0,2.99999999]")) r /\ bset_is r R /\ forall x, R x <-> (0 <= x /\ x <= 2)%Q.
Proof.
  apply (C63_moved_down _ _ _ B eq bset_is (mk false "0" "2.99999999" false) (Fin 0) 3 (1 # 100000000) (bfaithful _)); try reflexivity; try discriminate; try (split; absent).
  - plains.
  - intros _. exists 0%Z. reflexivity.
  - split; (eexists; split; [intro; reflexivity|reflexivity]).
Qed.

(** ** C64 *)
(** The interval rule decides equality of the written sets if the back end's comparison decides equality of sets ... *)
Theorem C64_rule_verdict St V S (IS : ISympy St V S) num set cmp ints iter iter_ok simpl lhs t1 P1 t2 P2 : faithful IS num set ->
  (forall s P t R, set s P -> set t R -> exists b, pure_to (cmp s t) b /\ (b = true <-> forall x, P x <-> R x)) ->
  denotes IS num t1 P1 -> denotes IS num t2 P2 ->
  exists b, pure_to (possible_intervals (with_intervals IS cmp ints iter iter_ok simpl lhs) t1 t2) (b, true) /\ (b = true <-> forall x, P1 x <-> P2 x).
Proof. exact (rule_verdict IS num set cmp ints iter iter_ok simpl lhs t1 P1 t2 P2). Qed.
Print Assumptions C64_rule_verdict.
(** ... and accepts equal sets only if the comparison accepts equal sets only. *)
Theorem C64_rule_sound St V S (IS : ISympy St V S) num set cmp ints iter iter_ok simpl lhs t1 P1 t2 P2 st c : faithful IS num set ->
  (forall s P t R st, set s P -> set t R -> fst (cmp s t st) = Ret true -> forall x, P x <-> R x) ->
  denotes IS num t1 P1 -> denotes IS num t2 P2 ->
  fst (possible_intervals (with_intervals IS cmp ints iter iter_ok simpl lhs) t1 t2 st) = Ret (true, c) -> forall x, P1 x <-> P2 x.
Proof. exact (rule_sound IS num set cmp ints iter iter_ok simpl lhs t1 P1 t2 P2 st c). Qed.
Print Assumptions C64_rule_sound.
Lemma bcmp_ok s P t R : bset_is s P -> bset_is t R -> exists b, pure_to (bcmp s t) b /\ (b = true <-> forall x, P x <-> R x).
Proof.
  cbn. intros H1 H2. exists (bset_eqb s t). split; [intro st; reflexivity|]. rewrite bset_eqb_spec. split; intros H x; [rewrite <- (H1 x), <- (H2 x); apply H|rewrite (H1 x), (H2 x); apply H].
Qed.
Definition i12 : valued := (mk true "1" "2" true, (Fin 1, Fin 2)).
Lemma ordinary_12 : ordinary i12. Proof. split; [plains|]. repeat split; try absent; intros _; [exists 1%Z|exists 2%Z]; reflexivity. Qed.
Lemma denotes_meet : denotes B eq (u "[0,2)\cap(1,\infty)") (fun x => 1 < x /\ x < 2)%Q.
Proof.
  exists (u "\cup"), (u "\cap"), [[i02; i1i]]. split; [reflexivity|]. split; [right; reflexivity|]. split; [right; reflexivity|]. split; [discriminate|]. split.
  - constructor; [|constructor]. split; [discriminate|]. split; [repeat constructor; first [apply ordinary_02|apply ordinary_1i]|].
    split; [constructor; [readable|constructor; [readable|constructor]]|apply meet_02].
  - intro x. rewrite Exists_cons, Exists_nil, !Forall_cons_iff, Forall_nil_iff. unfold usual, i02, i1i, mk, above, below. cbn. intuition lra.
Qed.
Lemma denotes_12 : denotes B eq (u "(1,2)") (fun x => 1 < x /\ x < 2)%Q.
Proof.
  exists (u "\cup"), (u "\cap"), [[i12]]. split; [reflexivity|]. split; [right; reflexivity|]. split; [right; reflexivity|]. split; [discriminate|]. split.
  - constructor; [|constructor]. split; [discriminate|]. split; [repeat constructor; apply ordinary_12|].
    split; [constructor; [readable|constructor]|apply single_meet].
  - intro x. rewrite Exists_cons, Exists_nil, !Forall_cons_iff, Forall_nil_iff. unfold usual, i12, mk, above, below. cbn. intuition lra.
Qed.
Example C64_ex iter iter_ok lhs :
  pure_to (possible_intervals (with_intervals B bcmp (fun x => x) iter iter_ok (fun _ _ => ret false) lhs) (u "[0,2)\cap(1,\infty)") (u "(1,2)")) (true, true).
Proof.
  destruct (C64_rule_verdict _ _ _ B eq bset_is bcmp (fun x => x) iter iter_ok (fun _ _ => ret false) lhs _ _ _ _ (bfaithful _) bcmp_ok denotes_meet denotes_12) as (b & P & H).
  assert (T : b = true) by (apply H; tauto). rewrite T in P. exact P.
Qed.
