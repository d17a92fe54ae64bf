(** A concrete back end for intervals: finite unions of intervals with rational or infinite end
    points.  Used only in examples. *)
From Coq Require Import String List NArith ZArith QArith Qabs Qround Bool Lia Lqa.
From Verif Require Import PyStr Monad MonadTheory Interval IntervalTheory.
Import ListNotations.

(** left open, lower end, upper end, right open *)
Definition box := (bool * ext * ext * bool)%type.
Definition in_box (b : box) (x : Q) : Prop := let '(lo, e, f, ro) := b in above lo e x /\ below ro f x.
Definition bset := list box.
Definition members (s : bset) (x : Q) : Prop := Exists (fun b => in_box b x) s.
Definition max_low (a b : bool * ext) : bool * ext :=
  if ext_gt (snd a) (snd b) then a else if ext_gt (snd b) (snd a) then b else (fst a || fst b, snd a).
Definition min_high (a b : bool * ext) : bool * ext :=
  if ext_gt (snd a) (snd b) then b else if ext_gt (snd b) (snd a) then a else (fst a || fst b, snd a).
Definition meet (a b : box) : box :=
  let '(lo, e, f, ro) := a in let '(lo', e', f', ro') := b in
  let l := max_low (lo, e) (lo', e') in let h := min_high (ro, f) (ro', f') in (fst l, snd l, snd h, fst h).
Definition box_empty (b : box) : bool :=
  let '(lo, e, f, ro) := b in
  match e, f with
  | PInf, _ | _, MInf => true
  | Fin p, Fin q => negb (Qle_bool p q) || (Qle_bool q p && (lo || ro))
  | _, _ => false
  end.
Lemma negb_le p q : negb (Qle_bool p q) = true <-> (q < p)%Q.
Proof. rewrite negb_true_iff. split; intro H.
  - apply Qnot_le_lt. intro L. apply Qle_bool_iff in L. congruence.
  - destruct (Qle_bool p q) eqn:L; [|reflexivity]. apply Qle_bool_iff in L. exfalso. lra.
Qed.
Lemma max_low_spec a b x : above (fst (max_low a b)) (snd (max_low a b)) x <-> above (fst a) (snd a) x /\ above (fst b) (snd b) x.
Proof.
  destruct a as [lo [|p|]], b as [lo' [|q|]]; unfold max_low; cbn [fst snd ext_gt]; try (cbn; destruct lo, lo'; tauto).
  destruct (negb (Qle_bool p q)) eqn:G1; [apply negb_le in G1; cbn; destruct lo, lo'; split; intros; try (split); lra|].
  destruct (negb (Qle_bool q p)) eqn:G2; [apply negb_le in G2; cbn; destruct lo, lo'; split; intros; try split; lra|].
  apply negb_false_iff, Qle_bool_iff in G1. apply negb_false_iff, Qle_bool_iff in G2. cbn. destruct lo, lo'; cbn; split; intros; try split; lra.
Qed.
Lemma min_high_spec a b x : below (fst (min_high a b)) (snd (min_high a b)) x <-> below (fst a) (snd a) x /\ below (fst b) (snd b) x.
Proof.
  destruct a as [lo [|p|]], b as [lo' [|q|]]; unfold min_high; cbn [fst snd ext_gt]; try (cbn; destruct lo, lo'; tauto).
  destruct (negb (Qle_bool p q)) eqn:G1; [apply negb_le in G1; cbn; destruct lo, lo'; split; intros; try (split); lra|].
  destruct (negb (Qle_bool q p)) eqn:G2; [apply negb_le in G2; cbn; destruct lo, lo'; split; intros; try split; lra|].
  apply negb_false_iff, Qle_bool_iff in G1. apply negb_false_iff, Qle_bool_iff in G2. cbn. destruct lo, lo'; cbn; split; intros; try split; lra.
Qed.
Lemma meet_spec a b x : in_box (meet a b) x <-> in_box a x /\ in_box b x.
Proof.
  destruct a as [[[lo e] f] ro], b as [[[lo' e'] f'] ro']. unfold meet, in_box. rewrite max_low_spec, min_high_spec. cbn [fst snd]. tauto.
Qed.
Lemma box_empty_spec b : box_empty b = true <-> forall x, ~ in_box b x.
Proof.
  destruct b as [[[lo e] f] ro]. unfold in_box. destruct e as [|p|], f as [|q|]; cbn [box_empty above below].
  - split; [tauto|reflexivity].
  - split; [discriminate|]. intro H. exfalso. apply (H (q - 1)%Q). split; [exact I|]. destruct ro; lra.
  - split; [discriminate|]. intro H. exfalso. apply (H 0%Q). tauto.
  - split; [tauto|reflexivity].
  - rewrite orb_true_iff, andb_true_iff, negb_le, Qle_bool_iff. split.
    + intros [L|[L O]] x; destruct lo, ro; try discriminate O; lra.
    + intro H. destruct (Qlt_le_dec q p) as [L|L]; [left; exact L|]. right. destruct (Qlt_le_dec p q) as [L'|L'].
      * exfalso. apply (H ((p + q) / 2)%Q). assert (p < (p + q) / 2 /\ (p + q) / 2 < q)%Q.
        { split; [apply Qlt_shift_div_l|apply Qlt_shift_div_r]; lra. }
        destruct lo, ro; lra.
      * split; [exact L'|]. destruct lo, ro; try reflexivity. exfalso. apply (H p). lra.
  - split; [discriminate|]. intro H. exfalso. apply (H (p + 1)%Q). split; [|exact I]. destruct lo; lra.
  - split; [tauto|reflexivity].
  - split; [tauto|reflexivity].
  - split; [tauto|reflexivity].
Qed.

(** [t]: the numbers latex2sympy reads *)
Definition BSympy (t : pystr -> option ext) : ISympy unit ext bset := {|
  iv_latex2sympy := fun s => match t s with Some e => ret e | None => raise ValueError end;
  iv_is_number := fun _ => ret true;
  iv_evalf := fun e => ret e;
  iv_is_int := fun e => ret (near_int e);
  iv_Integer := fun e => match e with Fin q => ret (Fin (inject_Z (trunc q))) | _ => raise ValueError end;
  iv_gt := fun a b => ret (ext_gt a b);
  iv_interval := fun a b lo ro => ret [(lo, a, b, ro)];
  iv_empty := [];
  iv_is_empty := fun s => ret (forallb box_empty s);
  iv_intersect := fun s t => ret (map (fun p => meet (fst p) (snd p)) (list_prod s t));
  iv_union := fun s t => ret (s ++ t) |}.
Lemma bfaithful t : faithful (BSympy t) eq (fun s P => forall x, members s x <-> P x).
Proof.
  split; cbn.
  - intros v e _ st; reflexivity.
  - intros v e <-. exists v. split; [intro st; reflexivity|reflexivity].
  - intros v e <- st; reflexivity.
  - intros v q ->. eexists. split; [intro st; reflexivity|reflexivity].
  - intros v e w f <- <- st; reflexivity.
  - intros v e w f lo ro <- <- _. eexists. split; [intro st; reflexivity|]. intro x. unfold members. rewrite Exists_cons, Exists_nil. cbn. tauto.
  - intro x. unfold members. rewrite Exists_nil. tauto.
  - intros s P HP. exists (forallb box_empty s). split; [intro st; reflexivity|]. rewrite forallb_forall. split.
    + intros H x Px. apply HP in Px. apply Exists_exists in Px. destruct Px as (b & Hb & Hx). apply (proj1 (box_empty_spec b) (H b Hb) x Hx).
    + intros H b Hb. apply box_empty_spec. intros x Hx. apply (H x), HP. apply Exists_exists. eauto.
  - intros s P r R HP HR. eexists. split; [intro st; reflexivity|]. intro x. rewrite <- HP, <- HR. unfold members. rewrite !Exists_exists. split.
    + intros (b & Hb & Hx). apply in_map_iff in Hb. destruct Hb as ([b1 b2] & <- & Hb). apply in_prod_iff in Hb. apply meet_spec in Hx. cbn in Hx.
      split; [exists b1|exists b2]; tauto.
    + intros [(b1 & H1 & X1) (b2 & H2 & X2)]. exists (meet b1 b2). split; [apply in_map_iff; exists (b1, b2); split; [reflexivity|apply in_prod; assumption]|].
      apply meet_spec. auto.
  - intros s P r R HP HR. eexists. split; [intro st; reflexivity|]. intro x. rewrite <- HP, <- HR. apply Exists_app.
Qed.
(** Equality of such sets can be decided. *)
Definition inter (s t : bset) : bset := map (fun p => meet (fst p) (snd p)) (list_prod s t).
Definition comp_box (b : box) : bset := let '(lo, e, f, ro) := b in [(true, MInf, e, negb lo); (negb ro, f, PInf, true)].
Definition comp (s : bset) : bset := fold_right (fun b acc => inter (comp_box b) acc) [(true, MInf, PInf, true)] s.
Definition bset_eqb (s t : bset) : bool := forallb box_empty (inter s (comp t)) && forallb box_empty (inter t (comp s)).
Lemma inter_spec s t x : members (inter s t) x <-> members s x /\ members t x.
Proof.
  unfold members, inter. rewrite !Exists_exists. split.
  - intros (b & Hb & Hx). apply in_map_iff in Hb. destruct Hb as ([b1 b2] & <- & Hb). apply in_prod_iff in Hb. apply meet_spec in Hx. cbn in Hx.
    split; [exists b1|exists b2]; tauto.
  - intros [(b1 & H1 & X1) (b2 & H2 & X2)]. exists (meet b1 b2). split; [apply in_map_iff; exists (b1, b2); split; [reflexivity|apply in_prod; assumption]|].
    apply meet_spec. auto.
Qed.
Lemma comp_box_spec b x : members (comp_box b) x <-> ~ in_box b x.
Proof.
  destruct b as [[[lo e] f] ro]. unfold members, comp_box, in_box. rewrite !Exists_cons, Exists_nil. cbn.
  assert (A : below (negb lo) e x <-> ~ above lo e x) by (destruct e as [|q|]; cbn; [tauto|destruct lo; cbn; lra|tauto]).
  assert (C : above (negb ro) f x <-> ~ below ro f x) by (destruct f as [|q|]; cbn; [tauto|destruct ro; cbn; lra|tauto]).
  rewrite A, C. assert (D : above lo e x \/ ~ above lo e x).
  { destruct e as [|q|]; cbn; [tauto| |tauto]. destruct lo; [destruct (Qlt_le_dec q x)|destruct (Qlt_le_dec x q)]; [left; assumption|right; lra|right; lra|left; assumption]. }
  tauto.
Qed.
Lemma comp_spec s x : members (comp s) x <-> ~ members s x.
Proof.
  induction s as [|b s IH]; cbn [comp fold_right].
  - unfold members. rewrite Exists_cons, Exists_nil. cbn. tauto.
  - fold (comp s). rewrite inter_spec, comp_box_spec, IH. unfold members at 2. rewrite Exists_cons. fold (members s x). tauto.
Qed.
Lemma empty_spec s : forallb box_empty s = true <-> forall x, ~ members s x.
Proof.
  rewrite forallb_forall. split.
  - intros H x Px. apply Exists_exists in Px. destruct Px as (b & Hb & Hx). apply (proj1 (box_empty_spec b) (H b Hb) x Hx).
  - intros H b Hb. apply box_empty_spec. intros x Hx. apply (H x). apply Exists_exists. eauto.
Qed.
Lemma in_box_dec b x : in_box b x \/ ~ in_box b x.
Proof.
  destruct b as [[[lo e] f] ro]. unfold in_box.
  assert (A : above lo e x \/ ~ above lo e x).
  { destruct e as [|q|]; cbn; [tauto| |tauto]. destruct lo; [destruct (Qlt_le_dec q x)|destruct (Qlt_le_dec x q)]; [left; assumption|right; lra|right; lra|left; assumption]. }
  assert (C : below ro f x \/ ~ below ro f x).
  { destruct f as [|q|]; cbn; [tauto| |tauto]. destruct ro; [destruct (Qlt_le_dec x q)|destruct (Qlt_le_dec q x)]; [left; assumption|right; lra|right; lra|left; assumption]. }
  tauto.
Qed.
Lemma members_dec s x : members s x \/ ~ members s x.
Proof. unfold members. induction s as [|b s IH]; [rewrite Exists_nil; tauto|]. rewrite Exists_cons. destruct (in_box_dec b x); tauto. Qed.
Lemma bset_eqb_spec s t : bset_eqb s t = true <-> forall x, members s x <-> members t x.
Proof.
  unfold bset_eqb. rewrite andb_true_iff, !empty_spec. split.
  - intros [H1 H2] x. specialize (H1 x). specialize (H2 x). rewrite inter_spec, comp_spec in H1, H2. destruct (members_dec s x), (members_dec t x); tauto.
  - intro H. split; intro x; rewrite inter_spec, comp_spec; specialize (H x); tauto.
Qed.
Definition bcmp (s t : bset) : M unit bool := ret (bset_eqb s t).
(** Single digits, decimals of one form and infinity *)
Definition small_numbers (s : pystr) : option ext :=
  match s with
  | [c] => if is_ascii_digit c then Some (Fin (inject_Z (Z.of_N (c - 48)))) else None
  | _ => if str_eqb s (u "\infty") then Some PInf else if str_eqb s (u "-\infty") then Some MInf
         else if str_eqb s (u "2.99999999") then Some (Fin (inject_Z 3 - (1 # 100000000)))
         else None
  end%N.
