(** /repo/demo.py [is_equiv_MATH] and /repo/example_tora_eval.py. *)
From Coq Require Import String List NArith ZArith QArith Bool Lia.
From Verif Require Import PyStr Monad Eval.
Import ListNotations.
Local Open Scope mon_scope.

Section Tora.
Variable W : World.
Variable n : nat.
Notation St := (St W).

(** A ground truth is a list of strings or a string. *)
Inductive ground := GList (l : list pystr) | GStr (s : pystr).

(** demo.py:22-25 *)
Fixpoint any_ground (l : list pystr) (pred : option pystr) : M St bool :=
  match l with
  | [] => ret false
  | g :: l' => b <- is_equiv W n (Some g) pred ;; if b then ret true else any_ground l' pred
  end.

(** demo.py:11-28 [is_equiv_MATH] *)
Definition is_equiv_MATH (g : ground) (pred : option pystr) : M St bool :=
  match g with
  | GList l => any_ground l pred
  | GStr s => is_equiv W n (Some s) pred
  end.

Definition boxed : pystr := u "\boxed{".

(** Python slice [s[l:r]] for 0 <= l and r >= -1 (r = None is -1, from rfind) *)
Definition slice_to (s : pystr) (l : nat) (r : option nat) : pystr :=
  let r := match r with Some k => k | None => pred (List.length s) end in
  skipn l (firstn r s).

(** example_tora_eval.py:30-36 [extract_boxed] *)
Definition extract_boxed (output : pystr) : option pystr :=
  match rfind_str boxed output with
  | Some (S k) => Some (slice_to output (S k + List.length boxed) (rfind_str (u "}") output))
  | _ => None
  end.

(** example_tora_eval.py:24-28: [q2a], later entries overwrite earlier ones. *)
Definition q2a (test_data : list (pystr * ground)) (q : pystr) : option ground :=
  fold_left (fun acc p => if str_eqb (fst p) q then Some (snd p) else acc) test_data None.

(** A model output: question and the list ["code"]. *)
Record output := { o_question : pystr; o_code : list pystr }.

(** example_tora_eval.py:38-46 *)
Fixpoint count (test_data : list (pystr * ground)) (tora : list output) (cnt : nat) : M St nat :=
  match tora with
  | [] => ret cnt
  | d :: tora' =>
    match q2a test_data (o_question d) with
    | None => raise KeyError
    | Some answer =>
      match o_code d with
      | [] => raise IndexError
      | _ :: _ =>
        match extract_boxed (List.last (o_code d) []) with
        | None => count test_data tora' cnt
        | Some p =>
          b <- is_equiv_MATH answer (Some p) ;;
          count test_data tora' (if b then S cnt else cnt)
        end
      end
    end
  end.

(** example_tora_eval.py:14-48: the printed ratio, as an exact fraction;
    ZeroDivisionError on empty data. *)
Definition accuracy (tora : list output) (test_data : list (pystr * ground)) : M St Q :=
  if negb (Nat.eqb (List.length tora) (List.length test_data)) then raise AssertionError
  else c <- count test_data tora 0%nat ;;
       match tora with
       | [] => raise (ExcOther 0)
       | _ => ret (inject_Z (Z.of_nat c) / inject_Z (Z.of_nat (List.length tora)))%Q
       end.
End Tora.
