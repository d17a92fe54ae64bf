(** Properties C45 and C46 of get_llm_type. *)
From Coq Require Import String List NArith ZArith Bool Lia.
From Verif Require Import PyStr Monad Split SplitTheory Prompts LLM LLMTheory.
Import ListNotations.
Local Open Scope N_scope.

(** ** C45 *)
(** The first reply with a type decides, after exactly that many calls. *)
Theorem C45_first_usable_reply St call p n k st t : (k < n)%nat ->
  gives (reply St call p k st) t -> (forall j, (j < k)%nat -> forall t', ~ gives (reply St call p j st) t') ->
  query St call n p st = (Ret (Some t), after_calls St call p (S k) st).
Proof. exact (query_found St call p k n st t). Qed.
Print Assumptions C45_first_usable_reply.
Theorem C45_no_usable_reply St call p n st :
  (forall j, (j < n)%nat -> forall t, ~ gives (reply St call p j st) t) ->
  query St call n p st = (Ret None, after_calls St call p n st).
Proof. exact (query_none St call p n st). Qed.
Print Assumptions C45_no_usable_reply.
(** In every case: no exception, at most [n] calls. *)
Theorem C45_bounded St call p n st :
  exists r k, (k <= n)%nat /\ query St call n p st = (Ret r, after_calls St call p k st).
Proof. exact (query_total St call p n st). Qed.
Print Assumptions C45_bounded.
(** Which text is the type. *)
Theorem C45_extracted_type text : 
  (forall t, extract_type text = Some t <-> type_line text t) /\
  (extract_type text = None <-> ~ exists a b, text = a ++ u "Type:" ++ b).
Proof. exact (conj (extract_type_spec text) (extract_type_none text)). Qed.
Print Assumptions C45_extracted_type.
Example C45_ex : get_llm_type _ scripted (u "q") (u "7") 1 5
   [Raise (ExcOther 3); Ret None; Ret (Some (u "I think Type: Real")); Ret (Some (u "Type: Set"))]
   = (Ret (Some (u "Real")), [Ret (Some (u "Type: Set"))]).
Proof.
  destruct (get_llm_type_prompt _ scripted (u "q") (u "7") 1 prompt_template 5 (or_introl (conj eq_refl eq_refl)))
    as (p & m & s & core & _ & _ & _ & _ & ->).
  apply (C45_first_usable_reply _ scripted _ 5 2).
  - lia.
  - exists (u "I think Type: Real"). split; [reflexivity|]. apply extract_type_spec. vm_compute. reflexivity.
  - intros [|[|j]] Hj t (text & E & _); try discriminate; lia.
Qed.

(** ** C46 *)
(** The prompt is the template with both fields filled in verbatim; the answer is
    shown between two dollar signs with none in between: its own core if it was
    written so, its text without dollar signs otherwise. *)
Theorem C46_prompt St call question answer ty t max_try : template_of ty t ->
  exists p m s core, t = doubled p ++ u "{question}" ++ doubled m ++ u "{ground_truth}" ++ doubled s /\
    ~ In dollar core /\ (forall c, dollared c answer -> core = c) /\
    ((forall c, ~ dollared c answer) -> core = without_dollars answer) /\
    forall st, get_llm_type St call question answer ty max_try st =
      query St call (Z.to_nat max_try) (p ++ question ++ m ++ (dollar :: core ++ [dollar]) ++ s) st.
Proof. exact (get_llm_type_prompt St call question answer ty t max_try). Qed.
Print Assumptions C46_prompt.
Theorem C46_wrapping_idempotent s r : wrap_answer s = Ret r -> wrap_answer r = Ret r.
Proof. exact (wrap_idempotent s r). Qed.
Print Assumptions C46_wrapping_idempotent.
Example C46_ex : wrap_answer (u "$a$ and $b") = Ret (u "$a and b$") /\ wrap_answer (u "$a and b$") = Ret (u "$a and b$").
Proof.
  assert (E : wrap_answer (u "$a$ and $b") = Ret (u "$a and b$")) by (vm_compute; reflexivity).
  split; [exact E|]. apply (C46_wrapping_idempotent _ _ E).
Qed.
