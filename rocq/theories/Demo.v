(** Concrete worlds, used only in the examples that show hypotheses can be met. *)
From Coq Require Import String List NArith ZArith Bool Permutation.
From Verif Require Import PyStr Regex Normalize Monad Split Eval.
Import ListNotations.

Definition in_table (t : list (pystr * pystr)) (x y : pystr) : bool :=
  existsb (fun p => str_eqb (fst p) x && str_eqb (snd p) y) t.

(** No answer is an interval; the symbolic back end accepts exactly the pairs in [t]. *)
Definition table_world (t : list (pystr * pystr)) : World := {|
  St := unit;
  int_str := fun x => x;
  set_iter := nodup str_eq_dec;
  set_iter_ok := fun l => Permutation_refl _;
  Iv := unit;
  interval_body := fun _ => raise ValueError;
  interval_compare := fun _ _ => ret true;
  equal_with_simplify := fun x y => ret (in_table t x y);
  parse_lhs := fun _ => ret tt |}.

(** The same with the opposite set iteration order. *)
Definition table_world_rev (t : list (pystr * pystr)) : World := {|
  St := unit;
  int_str := fun x => x;
  set_iter := fun l => rev (nodup str_eq_dec l);
  set_iter_ok := fun l => Permutation_sym (Permutation_rev _);
  Iv := unit;
  interval_body := fun _ => raise ValueError;
  interval_compare := fun _ _ => ret true;
  equal_with_simplify := fun x y => ret (in_table t x y);
  parse_lhs := fun _ => ret tt |}.

(** A back end in which every symbolic call raises [e]. *)
Definition raising_world (e : exn) : World := {|
  St := unit;
  int_str := fun x => x;
  set_iter := nodup str_eq_dec;
  set_iter_ok := fun l => Permutation_refl _;
  Iv := unit;
  interval_body := fun _ => raise e;
  interval_compare := fun _ _ => raise e;
  equal_with_simplify := fun _ _ => raise e;
  parse_lhs := fun _ => raise e |}.

(** A back end that accepts everything and counts its calls. *)
Definition counting_world : World := {|
  St := nat;
  int_str := fun x => x;
  set_iter := nodup str_eq_dec;
  set_iter_ok := fun l => Permutation_refl _;
  Iv := unit;
  interval_body := fun _ => raise ValueError;
  interval_compare := fun _ _ => ret true;
  equal_with_simplify := fun _ _ st => (Ret true, S st);
  parse_lhs := fun _ => ret tt |}.

(** Every answer is an interval; comparing two of them raises [e]. *)
Definition interval_world (e : exn) : World := {|
  St := unit;
  int_str := fun x => x;
  set_iter := nodup str_eq_dec;
  set_iter_ok := fun l => Permutation_refl _;
  Iv := unit;
  interval_body := fun _ => ret tt;
  interval_compare := fun _ _ => raise e;
  equal_with_simplify := fun _ _ => ret false;
  parse_lhs := fun _ => ret tt |}.
