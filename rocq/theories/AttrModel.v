(** Model of attributes and methods that only pass on what others work out: lookups in a namespace (patsy/eval.py),
    the comparison and the hash of terms (patsy/desc.py), the terms of a design (patsy/design_info.py). *)
From Coq Require Import NArith.
From Verif Require Import Base DescModel BuildModel EvalModel.
Open Scope nat_scope.
Open Scope list_scope.

Section Lookup.
Context {val : Type}.
(** eval.py:61-67 [VarLookupDict.__contains__] *)
Definition vld_contains (vld : list (@namespace val)) (key : string) : bool :=
  match vlookup vld key with Some _ => true | None => false end.
(** eval.py:69-73 [VarLookupDict.get] *)
Definition vld_get (vld : list (@namespace val)) (key : string) (default : val) : val :=
  match vlookup vld key with Some v => v | None => default end.
End Lookup.

(** desc.py:50-51 [Term.__ne__] *)
Definition term_ne (a b : term) : bool := negb (term_eqb a b).
Section Hash.
(** [shuffle] is the hash of a factor, as CPython's frozenset scrambles it before it takes the exclusive or of
    them all; [finish] is what it does with that and the size.  [of_pair] is [hash((Term, _))]. *)
Variables (shuffle : string -> N) (finish : nat -> N -> N) (of_pair : N -> N).
(** [hash(frozenset(factors))]: each element counts once. *)
Definition frozenset_hash (fs : list factor) : N :=
  let elements := nodup string_dec fs in
  finish (length elements) (fold_right N.lxor 0%N (map shuffle elements)).
(** desc.py:53-54 [Term.__hash__] *)
Definition term_hash (t : term) : N := of_pair (frozenset_hash t).
End Hash.

Section Design.
Context {V : Type}.
(** design_info.py:419-424 [DesignInfo.terms] *)
Definition di_terms (d : @design_info V) : option (list term) := option_map (map fst) (di_term_slices d).
(** design_info.py:426-429 [DesignInfo.term_names] *)
Definition di_term_names (d : @design_info V) : list string := map fst (di_name_slices d).
(** design_info.py:431-444 [DesignInfo.builder], which also warns. *)
Definition di_builder (d : @design_info V) : @design_info V := d.
End Design.
