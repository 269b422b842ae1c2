(** What an environment taken from the call stack is. *)
From Verif Require Import Base BuildModel EvalModel FrameModel.
From Coq Require Import NArith ZArith.
Open Scope string_scope.
Open Scope list_scope.

Section S.
Context {val : Type}.
(** [e] is the environment of the code running in [f]: its local variables, then its global ones, and
    those of its compiler flags that are __future__ features. *)
Definition environment_of (all_flags : N) (f : @frame val) (e : @evalenv val) : Prop :=
  ee_namespaces e = [f_locals f; f_globals f] /\
  forall i, N.testbit (ee_flags e) i = N.testbit (co_flags f) i && N.testbit all_flags i.

(** The value of a name seen by code running in [f]. *)
Definition seen_in (f : @frame val) (s : string) : option val :=
  match ns_get (f_locals f) s with Some v => Some v | None => ns_get (f_globals f) s end.

(** The two environments consist of the same mapping objects, in the same order, with the same flags. *)
Definition same_objects (a b : @evalenv val) : Prop :=
  ee_flags a = ee_flags b /\ Forall2 (fun x y => ns_id x = ns_id y) (ee_namespaces a) (ee_namespaces b).
(** Mappings with the same identity are the same. *)
Definition coherent (l : list (@mapping val)) : Prop := forall x y, In x l -> In y l -> ns_id x = ns_id y -> x = y.
End S.
