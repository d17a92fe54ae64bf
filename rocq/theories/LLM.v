(** /repo/math_evaluation/llms/llm_models.py: [get_llm_type]. *)
From Coq Require Import String List NArith ZArith Bool Lia.
From Verif Require Import PyStr Regex Normalize Monad Prompts.
Import ListNotations.
Local Open Scope mon_scope.
Local Open Scope N_scope.

(** [str.format] with keyword arguments and plain replacement fields ({name}); doubled
    braces are literal braces.  Conversions, format specifications and attribute access are not used in
    /repo and are treated as unknown names (KeyError).
    State: [None] outside a field, [Some name] (reversed) inside one. *)
Definition lookup (env : list (pystr * pystr)) (k : pystr) : option pystr :=
  match find (fun p => str_eqb (fst p) k) env with Some p => Some (snd p) | None => None end.

Fixpoint format_go (env : list (pystr * pystr)) (fld : option pystr) (s : pystr) : res pystr :=
  match fld, s with
  | None, [] => Ret []
  | Some _, [] => Raise ValueError          (* expected '}' before end of string *)
  | Some name, c :: s' =>
    if c =? 125 then
      match lookup env (rev name) with
      | Some v => match format_go env None s' with Ret r => Ret (v ++ r) | Raise e => Raise e end
      | None => Raise KeyError
      end
    else format_go env (Some (c :: name)) s'
  | None, c :: s' =>
    if c =? 123 then
      match s' with
      | d :: s'' => if d =? 123
                    then match format_go env None s'' with Ret r => Ret (123 :: r) | Raise e => Raise e end
                    else format_go env (Some []) s'
      | [] => Raise ValueError               (* single '{' *)
      end
    else if c =? 125 then
      match s' with
      | d :: s'' => if d =? 125
                    then match format_go env None s'' with Ret r => Ret (125 :: r) | Raise e => Raise e end
                    else Raise ValueError    (* single '}' *)
      | [] => Raise ValueError
      end
    else match format_go env None s' with Ret r => Ret (c :: r) | Raise e => Raise e end
  end.
Definition py_format (t : pystr) (env : list (pystr * pystr)) : res pystr := format_go env None t.

(** llm_models.py:53-54 *)
Definition wrap_answer (answer : pystr) : res pystr :=
  if starts_with (u "$") answer && ends_with (u "$") answer && Nat.eqb (count_cp 36 answer) 2
  then Ret answer
  else py_format (u "${ans}$") [(u "ans", replace (u "$") [] answer)].

(** llm_models.py:57-62 *)
Definition make_prompt (prompt_type : Z) (question answer : pystr) : res pystr :=
  let env := [(u "question", question); (u "ground_truth", answer)] in
  if (prompt_type =? 1)%Z then py_format prompt_template env
  else if (prompt_type =? 2)%Z then py_format prompt_template_2 env
  else Raise ValueError.

(** llm_models.py:75 (zero or more spaces after "Type:", then the rest of the line) *)
Definition type_re : regex :=
  rseq [rs "Type:"; RStarG (RChr CSpace); RGrp 1 (RStarG (RChr CDot))].
Definition extract_type (resp : pystr) : option pystr :=
  match re_search type_re resp with Some st => Some (grp 1 st) | None => None end.

Section LLM.
Variable St : Type.
(** One call of the model with the composed prompt: a reply text (None if the client
    returns None), or any exception. *)
Variable call_llm : pystr -> M St (option pystr).

(** llm_models.py:72-78; [n] = max_try - retry (no iteration if max_try <= 0). *)
Fixpoint query (n : nat) (prompt : pystr) : M St (option pystr) :=
  match n with
  | O => ret None
  | S n' =>
    r <- try_bare (resp <- call_llm prompt ;;
                   match resp with
                   | None => raise TypeError
                   | Some text => match extract_type text with
                                  | Some t => ret (Some t)
                                  | None => raise AttributeError
                                  end
                   end)
                  (ret None) ;;
    match r with Some t => ret (Some t) | None => query n' prompt end
  end.

(** llm_models.py:45-80 [get_llm_type] *)
Definition get_llm_type (question answer : pystr) (prompt_type max_try : Z) : M St (option pystr) :=
  fun st =>
  match wrap_answer answer with
  | Raise e => (Raise e, st)
  | Ret a => match make_prompt prompt_type question a with
             | Raise e => (Raise e, st)
             | Ret p => query (Z.to_nat max_try) p st
             end
  end.
End LLM.
