(** C95.  Results that do not depend on where in a formula things stand. *)
From Verif Require Import Base.

(** The same exception with the same message.  Only the place in the formula that an error points to may be
    another one. *)
Inductive same_error : exn -> exn -> Prop :=
  | same_exn e : same_error e e
  | other_place msg o o' : same_error (PatsyError msg o) (PatsyError msg o').
(** The same value, or the same error. *)
Inductive same_result {A} : result A -> result A -> Prop :=
  | same_value a : same_result (Ok a) (Ok a)
  | same_failure e e' : same_error e e' -> same_result (Err e) (Err e').
