(** What it means that a term comes too late to matter to another (C103). *)
From Verif Require Import Base DescModel BuildModel BuildSpec MemorizeModel PipeModel.
Open Scope list_scope.
Open Scope nat_scope.

Section Spec.
Context {V S : Type}.
(** The design has [f] as a numerical factor. *)
Definition numeric_in (x : @design V S) (f : factor) : Prop :=
  exists fi n, In (f, fi) (infos_of (ds_info x)) /\ fi_kind fi = FNum n.
(** Of the terms [tl] the user gave, [u] does not matter to [t]: it has other numerical factors, or more factors, or
    as many and comes later. *)
Definition too_late (x : @design V S) (tl : list term) (t u : term) : Prop :=
  ~ same_bucket (numeric_in x) t u \/ length t < length u \/ (length t = length u /\ before tl t u).
(** The names of the columns of a term, and its columns in a matrix. *)
Definition names_of (x : @design V S) (t : term) : list string := pick (column_names (ds_info x)) (term_at (ds_info x) t).
Definition part_of (x : @design V S) (m : @dmat V) (t : term) : list (list V) := pick (m_cols m) (term_at (ds_info x) t).
End Spec.
